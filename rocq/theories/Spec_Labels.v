(** * Spec_Labels: what the labels of the tables should say *)
From Coq Require Import String QArith.
From Verif Require Import Base M_PyWrap M_RunAlg M_Compare M_Csv M_Tables M_Labels.
Open Scope nat_scope.
Open Scope string_scope.

(** [t] is what [s] is called in the dictionary; what is not in it keeps its name. *)
Definition called (d : list (string * string)) (s t : string) : Prop :=
  In (s, t) d \/ (t = s /\ forall t', ~ In (s, t') d).

(** The headings of the columns, one label for every level, with what is in the column. *)
Definition headed {A} (m : midx A) (hs : list (list string * A)) : Prop :=
  Forall2 (fun col h => snd h = snd col /\ List.length (fst h) = List.length (m_levels m) /\
    forall l s, nth_error (fst h) l = Some s ->
      exists k lev, nth_error (fst col) l = Some k /\ nth_error (m_levels m) l = Some lev /\ nth_error lev k = Some s) (m_cols m) hs.

(** The level is that of the names of the cost cover cuts, whose labels need no other name. *)
Definition cc_level (names : list (option string)) (l : nat) : Prop := nth_error names l = Some (Some "cc_name").

(** The heading of every column in the new names; the columns are the same. *)
Definition renamed {A} (names : list (option string)) (h h' : list string * A) : Prop :=
  snd h' = snd h /\ List.length (fst h') = List.length (fst h) /\
  forall l s, nth_error (fst h) l = Some s -> exists s', nth_error (fst h') l = Some s' /\
    (cc_level names l -> s' = s) /\ (~ cc_level names l -> called pretty_names s s').

(** In every level, the column whose number is the code of a column has the same name as it. *)
Definition codes_are_columns {A} (m : midx A) (hs : list (list string * A)) : Prop :=
  forall i col h l k s, nth_error (m_cols m) i = Some col -> nth_error hs i = Some h -> ~ cc_level (m_names m) l ->
    nth_error (fst col) l = Some k -> nth_error (fst h) l = Some s ->
    exists h' s' t, nth_error hs k = Some h' /\ nth_error (fst h') l = Some s' /\ called pretty_names s t /\ called pretty_names s' t.

(** The names of the algorithms and cost functions in the tables. *)
Definition short_names : list (string * string) :=
  [("disjoint_tours_relaxation", "DTR"); ("extension", "Ex"); ("bfs_extension_collapse", "BFS-EC");
   ("bfs_path_extension_collapse", "BFS-PEC"); ("solve_pctsp", "BC"); ("suurballes_extension_collapse", "SBL-EC");
   ("suurballes_heuristic", "SBL"); ("suurballes_path_extension_collapse", "SBL-PEC"); ("EUC_2D", "EUC"); ("MST", "MST")].
Definition long_names : list (string * string) :=
  [("disjoint_tours_relaxation", "Disjoint Tours Relaxation"); ("extension", "Extension");
   ("bfs_extension_collapse", "BFS Extension and Collapse"); ("bfs_path_extension_collapse", "BFS Path Extension and Collapse");
   ("solve_pctsp", "PCTSP Branch and Cut"); ("suurballes_extension_collapse", "Suurballe's Extension and Collapse");
   ("suurballes_heuristic", "Suurballe's heuristic");
   ("suurballes_path_extension_collapse", "Suurballe's Path Extension and Collapse"); ("EUC_2D", "EUC"); ("MST", "MST")].
(** Strings get their name; numbers stay. *)
Definition value_called (d : list (string * string)) (v v' : value) : Prop :=
  match v with VStr s => exists s', v' = VStr s' /\ called d s s' | VNum _ => v' = v end.

(** The names of the branching strategies (BranchingStrategy, vial/model_params.py:66-69). *)
Definition strategy_called (v v' : value) : Prop :=
  (exists q n, v = VNum (Fin q) /\ (q == inject_Z n)%Q /\
    In (n, v') [(0%Z, VStr "Relative branching"); (1%Z, VStr "Strong branching"); (2%Z, VStr "Strong at tree top");
                (4%Z, VStr "Default")]) \/
  (v' = v /\ forall q n, v = VNum (Fin q) -> In n [0; 1; 2; 4]%Z -> ~ (q == inject_Z n)%Q).

(** What a column becomes. *)
Definition column_ok (long : bool) (x x' : string * list value) : Prop :=
  called pretty_names (fst x) (fst x') /\
  ((In (fst x) ["algorithm"; "cost_function"] /\ Forall2 (value_called (if long then long_names else short_names)) (snd x) (snd x')) \/
   (~ In (fst x) ["algorithm"; "cost_function"] /\ snd x' = snd x)).

(** What the labels of a row become. *)
Definition label_ok (long : bool) (n : option string) (v v' : value) : Prop :=
  match n with
  | Some s =>
      if existsb (String.eqb s) ["algorithm"; "cost_function"] then value_called (if long then long_names else short_names) v v'
      else if String.eqb s "branching_strategy" then exists w, value_called (if long then long_names else short_names) v w /\ strategy_called w v'
      else v' = v
  | None => v' = v
  end.
Definition row_ok (long : bool) (names : list (option string)) (r r' : list value) : Prop :=
  List.length r' = List.length r /\
  forall i n v, nth_error names i = Some n -> nth_error r i = Some v ->
    exists v', nth_error r' i = Some v' /\ label_ok long n v v'.
Definition name_ok (n n' : option string) : Prop :=
  match n with Some s => exists s', n' = Some s' /\ called pretty_names s s' | None => n' = None end.

(** The columns of the table of cost cover beneath each name: the label, how it is set, and what it says about a line. *)
Definition cc_heads (e : experiment_name) : list (string * fmt * (cc_line -> value)) :=
  match e with
  | CcLondonaqAlpha =>
      [("$\overline{\text{GAP}}$", FmtGap, fun c => VNum (cl_gap c)); ("$\overline{\text{LB}}$", FmtNum, fun c => VNum (cl_lower c));
       ("$\overline{\text{UB}}$", FmtNum, fun c => VNum (cl_upper c));
       ("FEAS", FmtR, fun c => VNum (Fin (inject_Z (Z.of_nat (cl_feasible c)))))]
  | _ =>
      [("$\overline{\text{PRE-CUTS}}$", FmtNum, fun c => VNum (cl_presolve c));
       ("$\overline{\text{TIME}}$ (s)", FmtNum, fun c => VNum (cl_duration c)); ("$\overline{\text{GAP}}$", FmtGap, fun c => VNum (cl_gap c));
       ("OPT", FmtR, fun c => VNum (Fin (inject_Z (Z.of_nat (cl_optimal c)))))]
  end.
Definition cc_head (n : cc_name) : string :=
  match n with
  | CcDisjoint => "Cost cover disjoint paths" | CcShortest => "Cost cover shortest paths" | CcNone => "No cost cover"
  end.

(** The labels of a row: cost function and alpha as a fraction, or alpha as a percentage, or the quota. *)
Definition cc_row_label (d : dataset_name) (k : string * Z) (r : list value) : Prop :=
  match d with
  | Tspwplib => exists s, called short_names (fst k) s /\ r = [VStr s; VNum (Fin (snd k # 100))]
  | Londonaq => r = [VNum (Fin (inject_Z (snd k)))]
  end.
Definition cc_index_label (d : dataset_name) (e : experiment_name) : list (option string) :=
  match d with
  | Tspwplib => [Some "Cost function"; Some "$\alpha$"]
  | Londonaq => match e with CcLondonaqAlpha => [Some "$\alpha$"] | _ => [Some "Quota"] end
  end.

(** What is in the row of the group [k] and a column about the lines with the name [n]: NaN if there is no such line. *)
Definition cell_ok (t : list ((string * Z * cc_name) * cc_line)) (n : cc_name) (f : cc_line -> value) (k : string * Z) (v : value)
    : Prop :=
  (exists c, In ((k, n), c) t /\ v = f c) \/ ((forall c, ~ In ((k, n), c) t) /\ v = VNum NaN).

(** The names that occur, in alphabetical order. *)
Definition names_of (t : list ((string * Z * cc_name) * cc_line)) (names : list cc_name) : Prop :=
  (forall n, In n names <-> exists k c, In ((k, n), c) t) /\
  exists a b c, names = (a ++ b ++ c)%list /\ (a = [] \/ a = [CcDisjoint]) /\ (b = [] \/ b = [CcShortest]) /\ (c = [] \/ c = [CcNone]).

(** The labels of a line of the table of tailing off. *)
Definition tailing_row_label (k : Z * Z * Q * Z) (r : list value) : Prop :=
  let '(depth, strategy, gamma, tau) := k in
  exists s, strategy_called (VNum (Fin (inject_Z strategy))) s /\
    r = [VNum (Fin (inject_Z depth)); s; VNum (Fin gamma); VNum (Fin (inject_Z tau))].

(** What the columns are called in LaTeX, by the dictionary of the source, here in alphabetical order; everything else keeps its
    name. *)
Definition labels : list (string * string) :=
  [("algorithm", "Algorithm");
   ("alpha", "$\alpha$");
   ("avg_cuts", "AVG CUTS");
   ("avg_cuts_presolve", "$\overline{\text{PRE-CUTS}}$");
   ("biggest_disjoint_prize", "$\max_{t \in G} \{ p(V(\cP_1)) + p(V(\cP_2)) - p(t) \}$");
   ("branching_max_depth", "$\Delta$");
   ("branching_strategy", "Branching strategy");
   ("cost_function", "Cost function");
   ("disjoint_prize_ratio", "$D(G)$");
   ("duration", "TIME (s)");
   ("gap", "GAP");
   ("graph_name", "Graph name");
   ("kappa", "$\kappa$");
   ("max_gap", "$\max(\text{GAP})$");
   ("mean_disjoint_prize_ratio", "\text{AVG}$(D(G))$");
   ("mean_duration", "$\overline{\text{TIME}}$ (s)");
   ("mean_gap", "$\overline{\text{GAP}}$");
   ("mean_lower_bound", "$\overline{\text{LB}}$");
   ("mean_num_nodes", "$\mu (NODES)$");
   ("mean_num_sec_disjoint_tour", "$\mu (SEC_DT) $");
   ("mean_num_sec_maxflow_mincut", "$\mu (SEC_MM) $");
   ("mean_preprocessed_prize_ratio", "\text{AVG}$\left(\frac{p(V(H))}{p(V(G))}\right)$");
   ("mean_upper_bound", "$\overline{\text{UB}}$");
   ("metricness", "$\zeta(G, c)$");
   ("min_gap", "$\min(\\text{GAP})$");
   ("num_edges", "$|E(G)|$");
   ("num_feasible_solutions", "FEAS");
   ("num_nodes", "$|V(G)|$");
   ("num_optimal_solutions", "OPT");
   ("num_secs", "$\mu (SEC)$");
   ("preprocessed_metricness", "$\zeta(H, c)$");
   ("preprocessed_num_edges", "$|E(H)|$");
   ("preprocessed_num_nodes", "$|V(H)|$");
   ("preprocessed_prize_ratio", "$\frac{p(V(H))}{p(V(G))}$");
   ("preprocessed_total_cost", "$c(E(H))");
   ("preprocessed_total_prize", "$p(V(H))$");
   ("quota", "Quota");
   ("sec_lp_gap_improvement_threshold", "$\gamma$");
   ("sec_max_tailing_off_iterations", "$\tau$");
   ("sec_sepafreq", "SEC freq");
   ("std_gap", "$\sigma (\text{GAP})$");
   ("total_cost", "$c(E(G))$");
   ("total_prize", "$p(V(G))$")].
