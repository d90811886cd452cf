(** * M_Labels: the labels of the rows and columns of the LaTeX tables, pctsp/apps/tables_app.py:28-83,86-90,148-221,361-397. *)
From Coq Require Import String QArith.
From Verif Require Import Base M_PyWrap M_RunAlg M_Compare M_Csv M_Tables.
Open Scope nat_scope.
Open Scope string_scope.

(** PRETTY_COLUMN_NAMES, tables_app.py:27-71. *)
Definition pretty_names : list (string * string) :=
  [("algorithm", "Algorithm");
   ("alpha", "$\alpha$");
   ("branching_max_depth", "$\Delta$");
   ("branching_strategy", "Branching strategy");
   ("cost_function", "Cost function");
   ("avg_cuts", "AVG CUTS");
   ("avg_cuts_presolve", "$\overline{\text{PRE-CUTS}}$");
   ("duration", "TIME (s)");
   ("graph_name", "Graph name");
   ("kappa", "$\kappa$");
   ("gap", "GAP");
   ("max_gap", "$\max(\text{GAP})$");
   ("mean_duration", "$\overline{\text{TIME}}$ (s)");
   ("mean_gap", "$\overline{\text{GAP}}$");
   ("mean_lower_bound", "$\overline{\text{LB}}$");
   ("mean_upper_bound", "$\overline{\text{UB}}$");
   ("min_gap", "$\min(\\text{GAP})$");
   ("mean_num_nodes", "$\mu (NODES)$");
   ("mean_num_sec_disjoint_tour", "$\mu (SEC_DT) $");
   ("mean_num_sec_maxflow_mincut", "$\mu (SEC_MM) $");
   ("metricness", "$\zeta(G, c)$");
   ("num_edges", "$|E(G)|$");
   ("num_nodes", "$|V(G)|$");
   ("total_cost", "$c(E(G))$");
   ("total_prize", "$p(V(G))$");
   ("num_secs", "$\mu (SEC)$");
   ("num_feasible_solutions", "FEAS");
   ("num_optimal_solutions", "OPT");
   ("sec_lp_gap_improvement_threshold", "$\gamma$");
   ("sec_max_tailing_off_iterations", "$\tau$");
   ("sec_sepafreq", "SEC freq");
   ("std_gap", "$\sigma (\text{GAP})$");
   ("quota", "Quota");
   ("biggest_disjoint_prize", "$\max_{t \in G} \{ p(V(\cP_1)) + p(V(\cP_2)) - p(t) \}$");
   ("disjoint_prize_ratio", "$D(G)$");
   ("preprocessed_num_nodes", "$|V(H)|$");
   ("preprocessed_num_edges", "$|E(H)|$");
   ("preprocessed_total_cost", "$c(E(H))");
   ("preprocessed_total_prize", "$p(V(H))$");
   ("preprocessed_metricness", "$\zeta(H, c)$");
   ("preprocessed_prize_ratio", "$\frac{p(V(H))}{p(V(G))}$");
   ("mean_preprocessed_prize_ratio", "\text{AVG}$\left(\frac{p(V(H))}{p(V(G))}\right)$");
   ("mean_disjoint_prize_ratio", "\text{AVG}$(D(G))$")].

(** [d[name]] of such a dictionary (tables_app.py:88-89; Python). *)
Fixpoint lookup (d : list (string * string)) (name : string) : option string :=
  match d with [] => None | (k, x) :: d => if String.eqb k name then Some x else lookup d name end.

(** make_column_name_pretty, tables_app.py:86-90. *)
Definition make_column_name_pretty (name : string) : string :=
  match lookup pretty_names name with Some x => x | None => name end.

(** list(AlgorithmName), vial/model_params.py:13-20. *)
Definition all_algorithms : list algorithm_name :=
  [DisjointToursRelaxation; Extension; BfsExtensionCollapse; BfsPathExtensionCollapse; SolvePctsp; SuurballesExtensionCollapse;
   SuurballesHeuristic; SuurballesPathExtensionCollapse].

(** LongAlgorithmName, vial/model_params.py:26-34, by the name of the algorithm. *)
Definition long_value (a : algorithm_name) : string :=
  match a with
  | DisjointToursRelaxation => "Disjoint Tours Relaxation"
  | Extension => "Extension"
  | BfsExtensionCollapse => "BFS Extension and Collapse"
  | BfsPathExtensionCollapse => "BFS Path Extension and Collapse"
  | SolvePctsp => "PCTSP Branch and Cut"
  | SuurballesExtensionCollapse => "Suurballe's Extension and Collapse"
  | SuurballesHeuristic => "Suurballe's heuristic"
  | SuurballesPathExtensionCollapse => "Suurballe's Path Extension and Collapse"
  end.

(** ShortAlgorithmName, vial/model_params.py:40-47, by the name of the algorithm. *)
Definition short_value (a : algorithm_name) : string :=
  match a with
  | DisjointToursRelaxation => "DTR"
  | Extension => "Ex"
  | BfsExtensionCollapse => "BFS-EC"
  | BfsPathExtensionCollapse => "BFS-PEC"
  | SolvePctsp => "BC"
  | SuurballesExtensionCollapse => "SBL-EC"
  | SuurballesHeuristic => "SBL"
  | SuurballesPathExtensionCollapse => "SBL-PEC"
  end.

(** A value in a table or in its index (tables_app.py:336-360; pandas): a string or a number. *)
Inductive value := VStr (s : string) | VNum (x : num).

(** A MultiIndex with the columns it belongs to (pandas, not in /repo; tables_app.py:377-378): the names of the levels, the
    different labels of every level, and for every column its codes, which are positions in the levels. *)
Record midx (A : Type) := mkMidx { m_names : list (option string); m_levels : list (list string); m_cols : list (list nat * A) }.
Arguments mkMidx {A}. Arguments m_names {A}. Arguments m_levels {A}. Arguments m_cols {A}.

(** A DataFrame whose columns have one or several levels, with the names and the rows of its index (pandas; tables_app.py:148). *)
Inductive columns := Flat (l : list (string * list value)) | Multi (m : midx (list value)).
(** With the definition above, tables_app.py:148. *)
Record tframe := mkT { tf_columns : columns; tf_index_names : list (option string); tf_index : list (list value) }.

(** [columns.get_level_values(level)] (tables_app.py:203-205; pandas): the label of every column in that level. *)
Definition get_level_values {A} (m : midx A) (level : nat) : res (list string) :=
  mapM (fun col => match nth_error (fst col) level with
    | Some k => match nth_error (nth level (m_levels m) []) k with Some s => Ok s | None => Throw IndexErrorPy end
    | None => Throw IndexErrorPy
    end) (m_cols m).

(** [columns.set_levels(new, level=level, verify_integrity=False)] (tables_app.py:206-208; pandas): the labels of the level are
    replaced; the codes stay as they are. *)
Definition set_levels {A} (m : midx A) (level : nat) (new : list string) : midx A :=
  mkMidx (m_names m) (upd (m_levels m) level new) (m_cols m).

(** [name in df] (tables_app.py:175,187,194; pandas): of several levels the first one counts. *)
Definition in_columns (c : columns) (name : string) : bool :=
  match c with
  | Flat l => existsb (fun x => String.eqb (fst x) name) l
  | Multi m => existsb (fun col => match nth_error (fst col) 0 with
      | Some k => match nth_error (nth 0 (m_levels m) []) k with Some s => String.eqb s name | None => false end
      | None => false
      end) (m_cols m)
  end.

(** [df.replace({name: d})] (tables_app.py:176; pandas): only in a column with that name, which columns of several levels do not
    have. *)
Definition replace_column (f : value -> value) (name : string) (c : columns) : columns :=
  match c with
  | Flat l => Flat (map (fun x => if String.eqb (fst x) name then (fst x, map f (snd x)) else x) l)
  | Multi m => Multi m
  end.

(** [df.replace(d)] (tables_app.py:188; pandas): in every column. *)
Definition replace_everywhere (f : value -> value) (c : columns) : columns :=
  match c with
  | Flat l => Flat (map (fun x => (fst x, map f (snd x))) l)
  | Multi m => Multi (mkMidx (m_names m) (m_levels m) (map (fun col => (fst col, map f (snd col))) (m_cols m)))
  end.

(** [name in df.index.names] (tables_app.py:177,189; Python). *)
Definition is_name (name : string) (o : option string) : bool := match o with Some s => String.eqb s name | None => false end.

(** [df.rename(index=d, level=name)] (tables_app.py:178,190; pandas). *)
Definition rename_level (f : value -> value) (name : string) (names : list (option string)) (index : list (list value))
    : list (list value) :=
  map (fun r => map (fun nv => if is_name name (fst nv) then f (snd nv) else snd nv) (combine names r)) index.

(** value_replacements, tables_app.py:158-172, as a function on values. *)
Definition replacements (long : bool) : list (string * string) :=
  (map (fun a => (algorithm_value a, if long then long_value a else short_value a)) all_algorithms
   ++ [("EUC_2D", "EUC"); ("MST", "MST")])%list.
(** With the definition above, tables_app.py:158-172. *)
Definition replace_value (long : bool) (v : value) : value :=
  match v with
  | VStr s => match lookup (replacements long) s with Some x => VStr x | None => v end
  | VNum _ => v
  end.

(** branching_replacements, tables_app.py:181-186. A float is the key of an integer that it is equal to. *)
Definition replace_branching (v : value) : value :=
  match v with
  | VNum (Fin q) =>
      if Qeq_bool q 0 then VStr "Relative branching" else if Qeq_bool q 1 then VStr "Strong branching"
      else if Qeq_bool q 2 then VStr "Strong at tree top" else if Qeq_bool q 4 then VStr "Default" else v
  | _ => v
  end.

(** The loop over the three columns and the branching names, tables_app.py:174-190. After the loop the variable col is
    branching_strategy. *)
Definition pretty_values (long : bool) (t : tframe) : tframe :=
  let step t col :=
    let t := if in_columns (tf_columns t) col
      then mkT (replace_column (replace_value long) col (tf_columns t)) (tf_index_names t) (tf_index t) else t in
    if existsb (is_name col) (tf_index_names t)
    then mkT (tf_columns t) (tf_index_names t) (rename_level (replace_value long) col (tf_index_names t) (tf_index t)) else t in
  let t := fold_left step ["algorithm"; "cost_function"; "branching_strategy"] t in
  let t := if in_columns (tf_columns t) "branching_strategy"
    then mkT (replace_everywhere replace_branching (tf_columns t)) (tf_index_names t) (tf_index t) else t in
  if existsb (is_name "branching_strategy") (tf_index_names t)
  then mkT (tf_columns t) (tf_index_names t) (rename_level replace_branching "branching_strategy" (tf_index_names t) (tf_index t))
  else t.

(** The columns, tables_app.py:193-208. The name of every level is looked up; the level cc_name is passed over. *)
Definition pretty_columns (c : columns) : res columns :=
  match c with
  | Flat l => Ok (Flat (map (fun x => (make_column_name_pretty (fst x), snd x)) l))
  | Multi m =>
      do m <- foldM (fun m level =>
        if match nth_error (m_names m) level with Some o => is_name "cc_name" o | None => false end then Ok m
        else
          do labels <- get_level_values m level;
          Ok (set_levels m level (map make_column_name_pretty labels))) (seq 0 (List.length (m_levels m))) m;
      Ok (Multi m)
  end.

(** pretty_dataframe, tables_app.py:148-221. *)
Definition pretty_dataframe (long : bool) (t : tframe) : res tframe :=
  let t := pretty_values long t in
  do c <- pretty_columns (tf_columns t);
  Ok (mkT c (map (option_map make_column_name_pretty) (tf_index_names t)) (tf_index t)).

(** *** The order of the columns *)

(** A stable sort (tables_app.py:378; pandas). *)
Fixpoint insert_by {A} (leb : A -> A -> bool) (x : A) (l : list A) : list A :=
  match l with [] => [x] | y :: r => if leb x y then x :: l else y :: insert_by leb x r end.
(** With the definition above, tables_app.py:378. *)
Definition sort_by {A} (leb : A -> A -> bool) (l : list A) : list A := fold_right (insert_by leb) [] l.

(** The place of a label in a level (tables_app.py:378; pandas). *)
Fixpoint index_of (s : string) (l : list string) : nat :=
  match l with [] => 0 | x :: r => if String.eqb x s then 0 else S (index_of s r) end.

(** The order of codes, the first level first (tables_app.py:378; pandas). *)
Fixpoint codes_leb (a b : list nat) : bool :=
  match a, b with
  | [], _ => true
  | _, [] => false
  | x :: a, y :: b => Nat.ltb x y || (Nat.eqb x y && codes_leb a b)
  end.

(** A list with the places of its entries (tables_app.py:377; pandas). *)
Definition numbered {A} (l : list A) : list (nat * A) := combine (seq 0 (List.length l)) l.

(** [df.unstack(level=name)] (tables_app.py:131,377; pandas), the columns: one for every column [v] and every label [r] of the
    level that is removed. [f v r] is what it contains. *)
Definition unstack {A} (name : string) (values removed : list string) (f : string -> string -> A) : midx A :=
  mkMidx [None; Some name] [values; removed]
    (flat_map (fun iv => map (fun jr => ([fst iv; fst jr], f (snd iv) (snd jr))) (numbered removed)) (numbered values)).

(** [df.swaplevel(0, 1, axis="columns")] (tables_app.py:132,378; pandas). *)
Definition swap2 {A} (l : list A) : list A := match l with x :: y :: r => y :: x :: r | _ => l end.
(** With the definition above, tables_app.py:132,378. *)
Definition swaplevel {A} (m : midx A) : midx A :=
  mkMidx (swap2 (m_names m)) (swap2 (m_levels m)) (map (fun col => (swap2 (fst col), snd col)) (m_cols m)).

(** [df.sort_index(axis=1)] (tables_app.py:133,378; pandas): every level is sorted, and the columns are sorted by their codes.
    The labels of a level are different. *)
Definition sort_index {A} (m : midx A) : midx A :=
  mkMidx (m_names m) (map (sort_by String.leb) (m_levels m))
    (sort_by (fun a b => codes_leb (fst a) (fst b))
      (map (fun col => (map (fun lk => index_of (nth (snd lk) (fst lk) "") (sort_by String.leb (fst lk)))
                            (combine (m_levels m) (fst col)), snd col)) (m_cols m))).

(** *** The table of cost cover *)

(** get_cc_name, tables_app.py:308-315, the strings. *)
Definition cc_string (n : cc_name) : string :=
  match n with
  | CcDisjoint => "Cost cover disjoint paths"
  | CcShortest => "Cost cover shortest paths"
  | CcNone => "No cost cover"
  end.

(** A number of a line as an integer of pandas (tables_app.py:342-343). *)
Definition vnat (n : nat) : value := VNum (nint (Z.of_nat n)).

(** The columns that are left (tables_app.py:337-376), in the order in which they were made. *)
Definition cc_columns (e : experiment_name) : list (string * (cc_line -> value)) :=
  match e with
  | CcLondonaqAlpha =>
      [("mean_lower_bound", fun c => VNum (cl_lower c)); ("mean_upper_bound", fun c => VNum (cl_upper c));
       ("mean_gap", fun c => VNum (cl_gap c)); ("num_feasible_solutions", fun c => vnat (cl_feasible c))]
  | _ =>
      [("mean_duration", fun c => VNum (cl_duration c)); ("mean_gap", fun c => VNum (cl_gap c));
       ("num_optimal_solutions", fun c => vnat (cl_optimal c)); ("avg_cuts_presolve", fun c => VNum (cl_presolve c))]
  end.

(** The index of the unstacked table (tables_app.py:324-334,377): the names of gb_cols without cc_name, and the labels of a
    group. alpha is divided by 100 for tspwplib only (326). *)
Definition cc_index_names (d : dataset_name) (e : experiment_name) : list (option string) :=
  match d, e with
  | Tspwplib, _ => [Some "cost_function"; Some "alpha"]
  | Londonaq, CcLondonaqAlpha => [Some "alpha"]
  | Londonaq, _ => [Some "quota"]
  end.
(** With the definition above, tables_app.py:324-334,377. *)
Definition cc_index (d : dataset_name) (k : string * Z) : list value :=
  match d with
  | Tspwplib => [VStr (fst k); VNum (Fin (snd k # 100))]
  | Londonaq => [VNum (nint (snd k))]
  end.

(** Equality of the labels of rows (tables_app.py:377; pandas). *)
Definition rowkey_eqb (x y : string * Z) : bool := String.eqb (fst x) (fst y) && Z.eqb (snd x) (snd y).

(** The groups and the names that occur (tables_app.py:335,377; pandas). The rows are listed by first occurrence (pandas sorts
    them); the names are sorted. *)
Definition cc_rows (t : list ((string * Z * cc_name) * cc_line)) : list (string * Z) :=
  fold_left (fun ks x => let k := fst (fst x) in if existsb (rowkey_eqb k) ks then ks else (ks ++ [k])%list) t [].
(** With the definition above, tables_app.py:335,377. *)
Definition cc_present (t : list ((string * Z * cc_name) * cc_line)) : list cc_name :=
  filter (fun n => existsb (fun x => cc_name_eqb n (snd (fst x))) t) [CcDisjoint; CcShortest; CcNone].

(** The value in a row and column (tables_app.py:377; pandas): NaN if there is no such group. *)
Definition cc_cell (e : experiment_name) (t : list ((string * Z * cc_name) * cc_line)) (column name : string) (k : string * Z)
    : value :=
  match find (fun x => rowkey_eqb k (fst (fst x)) && String.eqb name (cc_string (snd (fst x)))) t with
  | Some x => match find (fun c => String.eqb (fst c) column) (cc_columns e) with
              | Some c => snd c (snd x)
              | None => VNum NaN
              end
  | None => VNum NaN
  end.

(** A column of LaTeX: l, r, or a number by SI_NUM, SI_GAP or SI_SEP (tables_app.py:74-79). *)
Inductive fmt := FmtL | FmtR | FmtNum | FmtGap | FmtSep.
(** [n * s] (tables_app.py:370,376; Python). *)
Fixpoint times {A} (n : nat) (s : list A) : list A := match n with 0 => [] | S n => (s ++ times n s)%list end.

(** column_format, tables_app.py:365-376,384-385. *)
Definition cc_format (d : dataset_name) (e : experiment_name) : list fmt :=
  let f := match e with
    | CcLondonaqAlpha => FmtL :: times 3 [FmtGap; FmtNum; FmtNum; FmtR]
    | _ => FmtL :: times 3 [FmtNum; FmtNum; FmtGap; FmtR]
    end in
  match d with Tspwplib => FmtL :: f | Londonaq => f end.

(** The end of cost_cover_table, tables_app.py:377-393: the DataFrame that is written and its column_format. (The numbers
    are rounded by LaTeX, and cc_name is removed from the text, 397.) *)
Definition cost_cover_latex (d : dataset_name) (e : experiment_name) (t : list ((string * Z * cc_name) * cc_line))
    : res (tframe * list fmt) :=
  let m := sort_index (swaplevel (unstack "cc_name" (map fst (cc_columns e)) (map cc_string (cc_present t))
    (fun column name => map (cc_cell e t column name) (cc_rows t)))) in
  do p <- pretty_dataframe false (mkT (Multi m) (cc_index_names d e) (map (cc_index d) (cc_rows t)));
  Ok (p, cc_format d e).

(** *** The table of tailing off *)

(** The end of tailing_off_table, tables_app.py:258-267: the DataFrame that is written. *)
Definition tailing_off_latex (t : list ((Z * Z * Q * Z) * tailing_line)) : res tframe :=
  let col f := map (fun x => f (snd x)) t in
  pretty_dataframe false (mkT
    (Flat [("mean_duration", col (fun l => VNum (tl_duration l))); ("mean_gap", col (fun l => VNum (tl_gap l)));
           ("num_optimal_solutions", col (fun l => vnat (tl_optimal l)));
           ("num_feasible_solutions", col (fun l => vnat (tl_feasible l)));
           ("mean_num_nodes", col (fun l => VNum (tl_nodes l))); ("num_secs", col (fun l => VNum (tl_secs l)))])
    [Some "branching_max_depth"; Some "branching_strategy"; Some "sec_lp_gap_improvement_threshold";
     Some "sec_max_tailing_off_iterations"]
    (map (fun x => let '(depth, strategy, gamma, tau) := fst x in
       [VNum (nint depth); VNum (nint strategy); VNum (Fin gamma); VNum (nint tau)]) t)).
