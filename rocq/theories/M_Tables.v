(** * M_Tables: the numbers of the LaTeX tables, pctsp/apps/tables_app.py:224-445. *)
From Coq Require Import String QArith.
From Verif Require Import Base M_RunAlg M_Compare M_Csv.
Open Scope nat_scope.
Open Scope string_scope.

(** A float in a table (tables_app.py:239,298-305; numpy): not a number, finite, infinite. Finite numbers are exact;
    for the comparisons with 0 this makes no difference, because a difference of floats is 0 only for equal
    numbers and their quotient cannot underflow. *)
Inductive num := NaN | Fin (q : Q) | Inf (positive : bool).

(** [x - y] (tables_app.py:239,302,442; numpy), for numbers that are not infinite. *)
Definition nsub (x y : num) : num := match x, y with Fin a, Fin b => Fin (a - b) | _, _ => NaN end.

(** [x / y] (tables_app.py:239,302,443; pandas): no exception for 0; there is no negative zero here. *)
Definition ndiv (x y : num) : num :=
  match x, y with
  | Fin a, Fin b =>
      if Qeq_bool b 0 then (if Qeq_bool a 0 then NaN else Inf (Qle_bool 0 a)) else Fin (a / b)
  | _, _ => NaN
  end.

(** [x == 0] (tables_app.py:240,306,444; numpy): false for NaN. *)
Definition is_zero (x : num) : bool := match x with Fin q => Qeq_bool q 0 | _ => false end.

(** [x + y] (tables_app.py:247-250,350; numpy). *)
Definition nadd (x y : num) : num :=
  match x, y with
  | NaN, _ | _, NaN => NaN
  | Fin a, Fin b => Fin (a + b)
  | Inf s, Fin _ | Fin _, Inf s => Inf s
  | Inf s, Inf t => if Bool.eqb s t then Inf s else NaN
  end.

(** [np.mean] of a group (tables_app.py:259-264,338-347; pandas): entries that are NaN are passed over, and the
    mean of no entries is NaN. *)
Definition mean (l : list num) : num :=
  let l := filter (fun x => match x with NaN => false | _ => true end) l in
  match l with
  | [] => NaN
  | _ => match fold_left nadd l (Fin 0) with Fin s => Fin (s / inject_Z (Z.of_nat (List.length l))) | x => x end
  end.

(** SCIP_STATUS_OPTIMAL, SCIP_STATUS_INFEASIBLE, SCIP_BIG_NUMBER, tables_app.py:81-83. *)
Definition status_optimal : Z := 11.
(** With the definition above, tables_app.py:81-83. *)
Definition status_infeasible : Z := 12.
(** With the definition above, tables_app.py:81-83. *)
Definition big_number : Q := 100000000000000000000 # 1.

(** The columns of a csv file of branch and cut that are read (tables_app.py:239-264,289-347), the duration in
    microseconds (the file has seconds). [None] is an empty
    field, which pandas reads as NaN. *)
Record table_row := mkTableRow {
  t_cost_function : string; t_graph : string; t_quota : Z; t_alpha : option Z;
  t_disjoint : option bool; t_shortest : option bool;
  t_depth : option Z; t_strategy : option Z; t_gamma : option Q; t_tau : option Z;
  t_status : Z; t_lower : Q; t_upper : Q; t_feasible : bool; t_duration : Z;
  t_pre_disjoint : Z; t_pre_shortest : Z; t_nodes : Z; t_sec_disjoint : Z; t_sec_maxflow : Z }.

(** Reading columns of a row (tables_app.py:238,288; pandas): KeyError for a column that does not exist; TypeError stands
    for a value of another type. *)
Definition get_col {A} (f : cell -> option A) (r : row) (name : string) : res A :=
  match rget r name with
  | None => Throw KeyErrorPy
  | Some x => match f x with Some a => Ok a | None => Throw TypeErrorPy end
  end.
(** The types of the columns (tables_app.py:238,288; pandas). *)
Definition as_str (x : cell) : option string := match x with CStr s => Some s | _ => None end.
(** With the definition above, tables_app.py:238,288. *)
Definition as_int (x : cell) : option Z := match x with CInt z => Some z | _ => None end.
(** With the definition above, tables_app.py:238,288. *)
Definition as_num (x : cell) : option Q := match x with CNum q => Some q | _ => None end.
(** With the definition above, tables_app.py:238,288. *)
Definition as_bool (x : cell) : option bool := match x with CBool b => Some b | _ => None end.
(** With the definition above, tables_app.py:238,288. *)
Definition as_time (x : cell) : option Z := match x with CTime t => Some t | _ => None end.
(** With the definition above, tables_app.py:238,288. *)
Definition as_opt {A} (f : cell -> option A) (x : cell) : option (option A) :=
  match x with CNone | CNaN => Some None | _ => match f x with Some a => Some (Some a) | None => None end end.

(** [pd.read_csv] of a table of branch and cut (tables_app.py:238,288), one row. *)
Definition read_row (r : row) : res table_row :=
  do cf <- get_col as_str r "cost_function";
  do g <- get_col as_str r "graph_name";
  do q <- get_col as_int r "quota";
  do al <- get_col (as_opt as_int) r "alpha";
  do d <- get_col (as_opt as_bool) r "cost_cover_disjoint_paths";
  do s <- get_col (as_opt as_bool) r "cost_cover_shortest_path";
  do de <- get_col (as_opt as_int) r "branching_max_depth";
  do bs <- get_col (as_opt as_int) r "branching_strategy";
  do ga <- get_col (as_opt as_num) r "sec_lp_gap_improvement_threshold";
  do ta <- get_col (as_opt as_int) r "sec_max_tailing_off_iterations";
  do st <- get_col as_int r "status";
  do lb <- get_col as_num r "lower_bound";
  do ub <- get_col as_num r "upper_bound";
  do fe <- get_col as_bool r "feasible";
  do du <- get_col as_time r "duration";
  do pd <- get_col as_int r "nconss_presolve_disjoint_paths";
  do ps <- get_col as_int r "nconss_presolve_shortest_paths";
  do n <- get_col as_int r "num_nodes";
  do sd <- get_col as_int r "num_sec_disjoint_tour";
  do sm <- get_col as_int r "num_sec_maxflow_mincut";
  Ok (mkTableRow cf g q al d s de bs ga ta st lb ub fe du pd ps n sd sm).

(** An integer as a float (tables_app.py:242-245,338-347; numpy), below 2^53. *)
Definition nint (z : Z) : num := Fin (inject_Z z).

(** [df.groupby(key)] (tables_app.py:258,335; pandas): rows whose key contains NaN are dropped. The groups are listed
    by first occurrence (pandas sorts them). *)
Definition groupby {K R} (eqb : K -> K -> bool) (key : R -> option K) (rows : list R) : list (K * list R) :=
  let has k r := match key r with Some k' => eqb k k' | None => false end in
  let keys := fold_left (fun ks r => match key r with
    | Some k => if existsb (eqb k) ks then ks else (ks ++ [k])%list
    | None => ks
    end) rows [] in
  map (fun k => (k, filter (has k) rows)) keys.

(** The sum of a column of truth values (tables_app.py:261-262,342-343; pandas). *)
Definition count {R} (f : R -> bool) (rows : list R) : nat := List.length (filter f rows).

(** *** Tailing off *)

(** gap and optimal, tables_app.py:239-240. *)
Definition tailing_gap (r : table_row) : num :=
  ndiv (nsub (Fin (t_upper r)) (Fin (t_lower r))) (Fin (t_lower r)).
(** With the definition above, tables_app.py:239-240. *)
Definition tailing_optimal (r : table_row) : bool := is_zero (tailing_gap r).

(** num_secs, tables_app.py:241-250. *)
Definition num_secs (r : table_row) : num :=
  nadd (ndiv (nint (t_sec_disjoint r)) (nint (t_nodes r))) (ndiv (nint (t_sec_maxflow r)) (nint (t_nodes r))).

(** gb_cols, tables_app.py:252-257. *)
Definition tailing_key (r : table_row) : option (Z * Z * Q * Z) :=
  match t_depth r, t_strategy r, t_gamma r, t_tau r with
  | Some a, Some b, Some c, Some d => Some (a, b, c, d)
  | _, _, _, _ => None
  end.
(** Equality of these keys (tables_app.py:258; pandas). *)
Definition tailing_key_eqb (x y : Z * Z * Q * Z) : bool :=
  let '(a, b, c, d) := x in let '(a', b', c', d') := y in
  Z.eqb a a' && Z.eqb b b' && Qeq_bool c c' && Z.eqb d d'.

(** One line of the table, tables_app.py:259-264. *)
Record tailing_line := mkTailing {
  tl_duration : num; tl_gap : num; tl_optimal : nat; tl_feasible : nat; tl_nodes : num; tl_secs : num }.

(** tailing_off_table, tables_app.py:239-265, from the rows of the csv file. *)
Definition tailing_off_table (rows : list table_row) : list ((Z * Z * Q * Z) * tailing_line) :=
  map (fun '(k, l) => (k, mkTailing (mean (map (fun r => nint (t_duration r)) l)) (mean (map tailing_gap l))
      (count tailing_optimal l) (count t_feasible l) (mean (map (fun r => nint (t_nodes r)) l)) (mean (map num_secs l))))
    (groupby tailing_key_eqb tailing_key rows).

(** *** Cost cover *)

(** set_to_nan, tables_app.py:293-294. *)
Definition set_to_nan (x : Q) : num := if Qeq_bool x big_number then NaN else Fin x.

(** gap, tables_app.py:296-305. *)
Definition cc_gap (r : table_row) : num :=
  if Z.eqb (t_status r) status_infeasible then NaN
  else ndiv (nsub (set_to_nan (t_upper r)) (set_to_nan (t_lower r))) (set_to_nan (t_lower r)).

(** optimal, tables_app.py:306. *)
Definition cc_optimal (r : table_row) : bool := is_zero (cc_gap r) && Z.eqb (t_status r) status_optimal.

(** The names of get_cc_name, tables_app.py:310-314. *)
Inductive cc_name := CcDisjoint | CcShortest | CcNone.

(** The truth value of a field (tables_app.py:309-313; Python): NaN is true. *)
Definition truthy (x : option bool) : bool := match x with Some b => b | None => true end.

(** get_cc_name, tables_app.py:308-315. *)
Definition get_cc_name (disjoint shortest : option bool) : res cc_name :=
  match truthy disjoint, truthy shortest with
  | true, false => Ok CcDisjoint
  | false, true => Ok CcShortest
  | false, false => Ok CcNone
  | true, true => Throw ValueErrorPy
  end.

(** Equality of names (tables_app.py:335; pandas). *)
Definition cc_name_eqb (a b : cc_name) : bool :=
  match a, b with CcDisjoint, CcDisjoint | CcShortest, CcShortest | CcNone, CcNone => true | _, _ => false end.

(** gb_cols, tables_app.py:324-334: cost function, alpha or quota, and the name. (alpha is not divided by 100 here.)
    A column that is not in gb_cols is constant. *)
Definition cc_key (d : dataset_name) (e : experiment_name) (x : table_row * cc_name) : option (string * Z * cc_name) :=
  let '(r, n) := x in
  match d, e with
  | Tspwplib, _ => match t_alpha r with Some a => Some (t_cost_function r, a, n) | None => None end
  | Londonaq, CcLondonaqAlpha => match t_alpha r with Some a => Some ("", a, n) | None => None end
  | Londonaq, CostCover => Some ("", t_quota r, n)
  | Londonaq, _ => Some ("", 0%Z, n)
  end.
(** Equality of these keys (tables_app.py:335; pandas). *)
Definition cc_key_eqb (x y : string * Z * cc_name) : bool :=
  let '(a, b, c) := x in let '(a', b', c') := y in String.eqb a a' && Z.eqb b b' && cc_name_eqb c c'.

(** One line, tables_app.py:337-351. *)
Record cc_line := mkCc {
  cl_duration : num; cl_lower : num; cl_upper : num; cl_gap : num; cl_optimal : nat; cl_feasible : nat; cl_presolve : num }.

(** The aggregation of a group, tables_app.py:337-351. *)
Definition cc_aggregate (l : list (table_row * cc_name)) : cc_line :=
  let col f := mean (map (fun x => f (fst x)) l) in
  mkCc (col (fun r => nint (t_duration r))) (col (fun r => set_to_nan (t_lower r))) (col (fun r => set_to_nan (t_upper r)))
    (col cc_gap) (count (fun x => cc_optimal (fst x)) l) (count (fun x => t_feasible (fst x)) l)
    (nadd (col (fun r => nint (t_pre_disjoint r))) (col (fun r => nint (t_pre_shortest r)))).

(** cost_cover_table, tables_app.py:289-376, from the rows of the csv file. The variable column_format is only set for two
    experiments (365-376) and read later (385,393): for others this is an UnboundLocalError. A table without rows is not
    modelled (the apply of pandas does not return a column then). *)
Definition cost_cover_table (d : dataset_name) (e : experiment_name) (rows : list table_row)
    : res (list ((string * Z * cc_name) * cc_line)) :=
  let rows := filter (fun r => negb (String.eqb (t_cost_function r) "SEMI_MST")) rows in
  do named <- mapM (fun r => do n <- get_cc_name (t_disjoint r) (t_shortest r); Ok (r, n)) rows;
  let named := match d with
    | Londonaq => filter (fun x => negb (String.eqb (t_graph (fst x)) "laqtinyA")) named
    | Tspwplib => named
    end in
  let table := map (fun '(k, l) => (k, cc_aggregate l)) (groupby cc_key_eqb (cc_key d e) named) in
  match e with
  | CcLondonaqAlpha | CostCover => Ok table
  | _ => Throw UnboundLocalErrorPy
  end.

(** *** Heuristics *)

(** The columns of a csv file of heuristics that are read (tables_app.py:409-444,484-506). [None] is an empty field. *)
Record heur_row := mkHeur {
  h_dataset : string; h_graph : string; h_quota : Z; h_root : Z;
  h_generation : option string; h_kappa : option Z; h_cost_function : string; h_alpha : option Z;
  h_algorithm : string; h_depth : option Z; h_step : option Z; h_collapse : option bool;
  h_objective : num; h_feasible : bool; h_duration : Z }.

(** The columns of a csv file of branch and cut that are read with it (tables_app.py:418-432). *)
Record exact_row := mkExact {
  e_dataset : string; e_graph : string; e_quota : Z; e_root : Z;
  e_generation : option string; e_kappa : option Z; e_cost_function : string;
  e_disjoint : option bool; e_lower : Q; e_upper : Q }.

(** A number of a column whose infeasible entries are empty (tables_app.py:409-415; pandas). *)
Definition as_cost (x : cell) : option num :=
  match x with CNaN | CNone => Some NaN | CInt z => Some (nint z) | CNum q => Some (Fin q) | _ => None end.

(** [pd.read_csv] of a table of heuristics (tables_app.py:409-415), one row. *)
Definition read_heur_row (r : row) : res heur_row :=
  do d <- get_col as_str r "dataset";
  do g <- get_col as_str r "graph_name";
  do q <- get_col as_int r "quota";
  do ro <- get_col as_int r "root";
  do ge <- get_col (as_opt as_str) r "generation";
  do ka <- get_col (as_opt as_int) r "kappa";
  do cf <- get_col as_str r "cost_function";
  do al <- get_col (as_opt as_int) r "alpha";
  do a <- get_col as_str r "algorithm";
  do de <- get_col (as_opt as_int) r "path_depth_limit";
  do st <- get_col (as_opt as_int) r "step_size";
  do co <- get_col (as_opt as_bool) r "collapse_paths";
  do ob <- get_col as_cost r "objective";
  do fe <- get_col as_bool r "feasible";
  do du <- get_col as_time r "duration";
  Ok (mkHeur d g q ro ge ka cf al a de st co ob fe du).

(** [pd.read_csv] of a table of branch and cut (tables_app.py:418-424), one row. *)
Definition read_exact_row (r : row) : res exact_row :=
  do d <- get_col as_str r "dataset";
  do g <- get_col as_str r "graph_name";
  do q <- get_col as_int r "quota";
  do ro <- get_col as_int r "root";
  do ge <- get_col (as_opt as_str) r "generation";
  do ka <- get_col (as_opt as_int) r "kappa";
  do cf <- get_col as_str r "cost_function";
  do cd <- get_col (as_opt as_bool) r "cost_cover_disjoint_paths";
  do lb <- get_col as_num r "lower_bound";
  do ub <- get_col as_num r "upper_bound";
  Ok (mkExact d g q ro ge ka cf cd lb ub).

(** The values of join_cols, tables_app.py:429-431: the last three only for tspwplib. *)
Definition join_key := (string * string * Z * Z * option (option string * option Z * string))%type.
(** With the definition above, tables_app.py:429-431. *)
Definition heur_key (d : dataset_name) (h : heur_row) : join_key :=
  (h_dataset h, h_graph h, h_quota h, h_root h,
   match d with Tspwplib => Some (h_generation h, h_kappa h, h_cost_function h) | Londonaq => None end).
(** With the definition above, tables_app.py:429-431. *)
Definition exact_key (d : dataset_name) (e : exact_row) : join_key :=
  (e_dataset e, e_graph e, e_quota e, e_root e,
   match d with Tspwplib => Some (e_generation e, e_kappa e, e_cost_function e) | Londonaq => None end).

(** Equality of keys (tables_app.py:433-440; pandas): empty fields are equal. *)
Definition opt_eqb {A} (eqb : A -> A -> bool) (x y : option A) : bool :=
  match x, y with Some a, Some b => eqb a b | None, None => true | _, _ => false end.
(** With the definition above, tables_app.py:433-440. *)
Definition join_key_eqb (x y : join_key) : bool :=
  let '(a, b, c, d, e) := x in let '(a', b', c', d', e') := y in
  String.eqb a a' && String.eqb b b' && Z.eqb c c' && Z.eqb d d' &&
  opt_eqb (fun u v => let '(g, k, f) := u in let '(g', k', f') := v in
    opt_eqb String.eqb g g' && opt_eqb Z.eqb k k' && String.eqb f f') e e'.

(** The columns of the heuristic that distinguish rows, tables_app.py:434-437. *)
Definition run_key_eqb (d : dataset_name) (x y : heur_row) : bool :=
  join_key_eqb (heur_key d x) (heur_key d y) && String.eqb (h_algorithm x) (h_algorithm y) &&
  opt_eqb Z.eqb (h_depth x) (h_depth y) && opt_eqb Z.eqb (h_step x) (h_step y) &&
  opt_eqb Bool.eqb (h_collapse x) (h_collapse y).

(** [df.drop_duplicates(subset)] (tables_app.py:433-437; pandas): the first row of each kind. *)
Definition drop_duplicates {R} (same : R -> R -> bool) (rows : list R) : list R :=
  fold_left (fun kept r => if existsb (same r) kept then kept else (kept ++ [r])%list) rows [].

(** A row of the joined table, tables_app.py:440-444. *)
Record joined := mkJoined { j_heur : heur_row; j_lower : num; j_gap : num; j_optimal : bool }.

(** gap and is_optimal, tables_app.py:441-444. *)
Definition join_row (h : heur_row) (lower : num) : joined :=
  let gap := ndiv (nsub (h_objective h) lower) lower in
  mkJoined h lower gap (is_zero gap).

(** get_heuristics_df, tables_app.py:425-445: one row for every matching row of the right table, and one with an empty bound
    if there is none. A selector (426) with an empty field is a ValueError. *)
Definition get_heuristics_df (d : dataset_name) (heur : list heur_row) (exact : list exact_row) : res (list joined) :=
  if existsb (fun e => match e_disjoint e with None => true | _ => false end) exact then Throw ValueErrorPy
  else
    let exact := filter (fun e => truthy (e_disjoint e)) exact in
    let exact := drop_duplicates (fun a b => join_key_eqb (exact_key d a) (exact_key d b)) exact in
    let heur := drop_duplicates (run_key_eqb d) heur in
    Ok (flat_map (fun h =>
      match filter (fun e => join_key_eqb (heur_key d h) (exact_key d e)) exact with
      | [] => [join_row h NaN]
      | es => map (fun e => join_row h (Fin (e_lower e))) es
      end) heur).

(** ShortAlgorithmName[name], vial/model_params.py:37-47 (tables_app.py:518). *)
Definition short_name (name : string) : res string :=
  match find (fun p => String.eqb (fst p) name)
    [("disjoint_tours_relaxation", "DTR"); ("bfs_extension_collapse", "BFS-EC"); ("bfs_path_extension_collapse", "BFS-PEC");
     ("extension", "Ex"); ("solve_pctsp", "BC"); ("suurballes_extension_collapse", "SBL-EC");
     ("suurballes_heuristic", "SBL"); ("suurballes_path_extension_collapse", "SBL-PEC")] with
  | Some (_, s) => Ok s
  | None => Throw KeyErrorPy
  end.

(** cols, tables_app.py:484-499: cost function and kappa, or alpha, or quota. *)
Definition heur_group (d : dataset_name) (e : experiment_name) (j : joined) : option (string * Z * string) :=
  let h := j_heur j in
  match d, e with
  | Tspwplib, _ => match h_kappa h with Some k => Some (h_cost_function h, k, h_algorithm h) | None => None end
  | Londonaq, LondonaqAlpha => match h_alpha h with Some a => Some ("", a, h_algorithm h) | None => None end
  | Londonaq, _ => Some ("", h_quota h, h_algorithm h)
  end.
(** Equality of these groups (tables_app.py:500; pandas). *)
Definition heur_group_eqb (x y : string * Z * string) : bool :=
  let '(a, b, c) := x in let '(a', b', c') := y in String.eqb a a' && Z.eqb b b' && String.eqb c c'.

(** A line, tables_app.py:501-506. *)
Record heur_line := mkHeurLine { hl_optimal : nat; hl_feasible : nat; hl_gap : num; hl_duration : num }.

(** heuristics_table, tables_app.py:466-519, from the joined rows: the lines of the table. *)
Definition heuristics_lines (d : dataset_name) (e : experiment_name) (sbl_ec_only : bool) (rows : list joined)
    : res (list ((string * Z * string) * heur_line)) :=
  let rows := filter (fun j => Bool.eqb sbl_ec_only (String.eqb (h_algorithm (j_heur j)) "suurballes_extension_collapse")) rows in
  let rows := filter (fun j => negb (String.eqb (h_graph (j_heur j)) "laqtinyA")) rows in
  let rows := match d with
    | Tspwplib => filter (fun j => existsb (String.eqb (h_cost_function (j_heur j))) ["EUC_2D"; "MST"]) rows
    | Londonaq => rows
    end in
  mapM (fun '((a, b, alg), l) =>
    do s <- short_name alg;
    Ok ((a, b, s), mkHeurLine (count j_optimal l) (count (fun j => h_feasible (j_heur j)) l) (mean (map j_gap l))
      (mean (map (fun j => nint (h_duration (j_heur j))) l))))
    (groupby heur_group_eqb (heur_group d e) rows).
