(** * Spec_Tables: what the numbers of the tables should be *)
From Coq Require Import String QArith.
From Verif Require Import Base M_Python M_PyWrap M_RunAlg M_Compare M_Stats M_Csv Spec_Lab Spec_Csv M_Tables.
Open Scope nat_scope.

(** The mean of numbers; there is none of no numbers. *)
Definition is_mean (l : list Q) (m : num) : Prop :=
  match l with
  | [] => m = NaN
  | _ => exists q, m = Fin q /\ (q * inject_Z (Z.of_nat (List.length l)) == fold_right Qplus 0 l)%Q
  end.

(** [n] is the number of entries of [l] that satisfy [P]. *)
Definition counts {A} (P : A -> Prop) (l : list A) (n : nat) : Prop := exists sub, selected P l sub /\ List.length sub = n.

(** The groups are not empty, have different keys, and consist of the rows with that key, in order; every row with a
    key is in one. *)
Definition grouped {K R} (same : K -> K -> Prop) (key : R -> option K) (rows : list R) (groups : list (K * list R)) : Prop :=
  ForallOrdPairs (fun a b => ~ same (fst a) (fst b)) groups /\
  (forall k l, In (k, l) groups -> l <> [] /\ selected (fun r => exists k', key r = Some k' /\ same k k') rows l) /\
  (forall r k, In r rows -> key r = Some k -> exists k' l, In (k', l) groups /\ same k' k /\ In r l).

(** The solver proved a solution of this cost to be optimal. *)
Definition solved_with_cost (r : table_row) (cost : Q) : Prop :=
  t_status r = 11%Z /\ (t_lower r == cost)%Q /\ (t_upper r == cost)%Q.

(** Both bounds are known: 10^20 stands for no bound. *)
Definition has_bounds (r : table_row) : Prop :=
  t_status r <> 12%Z /\ ~ (t_lower r == big_number)%Q /\ ~ (t_upper r == big_number)%Q.

(** The first entries of each kind. *)
Inductive firsts {A} (same : A -> A -> Prop) : list A -> list A -> list A -> Prop :=
| firsts_nil : forall seen, firsts same seen [] []
| firsts_keep : forall seen x l sub, (forall y, In y seen -> ~ same x y) -> firsts same (seen ++ [x]) l sub ->
    firsts same seen (x :: l) (x :: sub)
| firsts_drop : forall seen x y l sub, In y seen -> same x y -> firsts same (seen ++ [x]) l sub ->
    firsts same seen (x :: l) sub.

(** The instance of a row: dataset, graph, quota, root and, for tspwplib, generation, kappa and cost function. *)
Definition same_instance (d : dataset_name) (h : heur_row) (e : exact_row) : Prop :=
  h_dataset h = e_dataset e /\ h_graph h = e_graph e /\ h_quota h = e_quota e /\ h_root h = e_root e /\
  (d = Tspwplib -> h_generation h = e_generation e /\ h_kappa h = e_kappa e /\ h_cost_function h = e_cost_function e).
Definition same_run (d : dataset_name) (x y : heur_row) : Prop :=
  h_dataset x = h_dataset y /\ h_graph x = h_graph y /\ h_quota x = h_quota y /\ h_root x = h_root y /\
  (d = Tspwplib -> h_generation x = h_generation y /\ h_kappa x = h_kappa y /\ h_cost_function x = h_cost_function y) /\
  h_algorithm x = h_algorithm y /\ h_depth x = h_depth y /\ h_step x = h_step y /\ h_collapse x = h_collapse y.

(** The lower bound of the first run with disjoint-paths cost cover of the same instance; none if there is no such run. *)
Definition bound_of (d : dataset_name) (exact : list exact_row) (h : heur_row) (x : num) : Prop :=
  (exists l1 e l2, exact = (l1 ++ e :: l2)%list /\ e_disjoint e = Some true /\ same_instance d h e /\
     (forall e', In e' l1 -> e_disjoint e' = Some true -> ~ same_instance d h e') /\ x = Fin (e_lower e)) \/
  ((forall e, In e exact -> e_disjoint e = Some true -> ~ same_instance d h e) /\ x = NaN).

(** The row of the table of branch and cut that belongs to a vial with a result and statistics. *)
Definition vial_row (x : full_vial * stored_result * @summary Q) : table_row :=
  let '(v, r, s) := x in
  let d := fv_data v in
  let mp := fp_model (fv_params v) in
  mkTableRow (dc_cost_function d) (dc_graph_name d) (dc_quota d) (dc_alpha d) (mp_cc_disjoint mp) (mp_cc_shortest mp)
    (mp_branching_max_depth mp) (mp_branching_strategy mp) (option_map (fun z => z # 1000) (mp_lp_gap mp)) (mp_tailing_off mp)
    (sm_status s) (sm_lower s) (sm_upper s) (Z.leb (dc_quota d) (r_prize (st_result r))) (st_end r - st_start r)
    (sm_pre_disjoint s) (sm_pre_shortest s) (sm_nodes s) (sm_sec_disjoint s) (sm_sec_maxflow s).

(** The kind of cost cover of a row. *)
Definition cover_name (r : table_row) (n : cc_name) : Prop :=
  match n with
  | CcDisjoint => t_disjoint r = Some true /\ t_shortest r = Some false
  | CcShortest => t_disjoint r = Some false /\ t_shortest r = Some true
  | CcNone => t_disjoint r = Some false /\ t_shortest r = Some false
  end.

(** The rows of a line of the table of cost cover: cost function and alpha for tspwplib; alpha or quota for londonaq. *)
Definition cc_group (d : dataset_name) (e : experiment_name) (x : table_row * cc_name) : option (string * Z * cc_name) :=
  match d with
  | Tspwplib => option_map (fun a => (t_cost_function (fst x), a, snd x)) (t_alpha (fst x))
  | Londonaq => if match e with CcLondonaqAlpha => true | _ => false end
      then option_map (fun a => (EmptyString, a, snd x)) (t_alpha (fst x))
      else Some (EmptyString, t_quota (fst x), snd x)
  end.

(** What a line says about its rows. *)
Record cc_line_ok (l : list table_row) (c : cc_line) : Prop := {
  cc_optimal_count : counts (fun r => exists cost, solved_with_cost r cost /\ ~ (cost == 0)%Q /\ ~ (cost == big_number)%Q) l (cl_optimal c);
  cc_feasible_count : counts (fun r => t_feasible r = true) l (cl_feasible c);
  cc_gap_mean : (forall r, In r l -> ~ (t_lower r == 0)%Q) -> exists sub, selected has_bounds l sub /\
    is_mean (map (fun r => (t_upper r - t_lower r) / t_lower r)%Q sub) (cl_gap c);
  cc_gap_infinite : (exists r, In r l /\ has_bounds r /\ (t_lower r == 0)%Q /\ (0 < t_upper r)%Q) ->
    (forall r, In r l -> has_bounds r -> (t_lower r == 0)%Q -> (0 <= t_upper r)%Q) -> cl_gap c = Inf true;
  cc_lower_mean : exists sub, selected (fun r => ~ (t_lower r == big_number)%Q) l sub /\ is_mean (map t_lower sub) (cl_lower c);
  cc_upper_mean : exists sub, selected (fun r => ~ (t_upper r == big_number)%Q) l sub /\ is_mean (map t_upper sub) (cl_upper c);
  cc_duration_mean : is_mean (map (fun r => inject_Z (t_duration r)) l) (cl_duration c);
  cc_presolve_mean : l <> [] -> exists q,
    cl_presolve c = Fin q /\ is_mean (map (fun r => inject_Z (t_pre_disjoint r + t_pre_shortest r)) l) (Fin q) }.

(** The rows of a line of the table of tailing off, and what it says about them. *)
Definition same_tailing (x y : Z * Z * Q * Z) : Prop :=
  let '(a, b, c, d) := x in let '(a', b', c', d') := y in a = a' /\ b = b' /\ (c == c')%Q /\ d = d'.
Definition tailing_group (r : table_row) : option (Z * Z * Q * Z) :=
  match t_depth r, t_strategy r, t_gamma r, t_tau r with
  | Some depth, Some strategy, Some gamma, Some tau => Some (depth, strategy, gamma, tau)
  | _, _, _, _ => None
  end.
Record tailing_line_ok (l : list table_row) (c : tailing_line) : Prop := {
  tl_optimal_count : counts (fun r => (t_upper r == t_lower r)%Q /\ ~ (t_lower r == 0)%Q) l (tl_optimal c);
  tl_feasible_count : counts (fun r => t_feasible r = true) l (tl_feasible c);
  tl_gap_mean : (forall r, In r l -> ~ (t_lower r == 0)%Q) ->
    is_mean (map (fun r => (t_upper r - t_lower r) / t_lower r)%Q l) (tl_gap c);
  tl_gap_infinite : (exists r, In r l /\ (t_lower r == 0)%Q /\ (0 < t_upper r)%Q) ->
    (forall r, In r l -> (t_lower r == 0)%Q -> (0 <= t_upper r)%Q) -> tl_gap c = Inf true;
  tl_duration_mean : is_mean (map (fun r => inject_Z (t_duration r)) l) (tl_duration c);
  tl_nodes_mean : is_mean (map (fun r => inject_Z (t_nodes r)) l) (tl_nodes c);
  tl_secs_mean : (forall r, In r l -> t_nodes r <> 0%Z) ->
    is_mean (map (fun r => inject_Z (t_sec_disjoint r + t_sec_maxflow r) / inject_Z (t_nodes r))%Q l) (tl_secs c) }.

(** The gap of a cost and a lower bound, and whether the cost is that bound; 0 is never called optimal. *)
Record joined_ok (h : heur_row) (j : joined) : Prop := {
  joined_heur : j_heur j = h;
  joined_gap : forall c b, h_objective h = Fin c -> j_lower j = Fin b -> ~ (b == 0)%Q ->
    exists g, j_gap j = Fin g /\ (g * b == c - b)%Q;
  joined_no_gap : h_objective h = NaN \/ j_lower j = NaN -> j_gap j = NaN;
  joined_infinite : forall c b, h_objective h = Fin c -> j_lower j = Fin b -> (b == 0)%Q ->
    ((0 < c)%Q -> j_gap j = Inf true) /\ ((c < 0)%Q -> j_gap j = Inf false) /\ ((c == 0)%Q -> j_gap j = NaN);
  joined_optimal : j_optimal j = true <-> exists c b, h_objective h = Fin c /\ j_lower j = Fin b /\ (c == b)%Q /\ ~ (b == 0)%Q }.

(** The rows of a line of the table of heuristics: cost function and kappa for tspwplib; alpha or quota for londonaq; and
    the algorithm. *)
Definition heur_group_of (d : dataset_name) (e : experiment_name) (j : joined) : option (string * Z * string) :=
  let h := j_heur j in
  match d with
  | Tspwplib => option_map (fun k => (h_cost_function h, k, h_algorithm h)) (h_kappa h)
  | Londonaq => if match e with LondonaqAlpha => true | _ => false end
      then option_map (fun a => (EmptyString, a, h_algorithm h)) (h_alpha h)
      else Some (EmptyString, h_quota h, h_algorithm h)
  end.

(** The names of the algorithms in the tables. *)
Definition names : list (string * string) :=
  [("disjoint_tours_relaxation", "DTR"); ("extension", "Ex"); ("bfs_extension_collapse", "BFS-EC");
   ("bfs_path_extension_collapse", "BFS-PEC"); ("solve_pctsp", "BC"); ("suurballes_extension_collapse", "SBL-EC");
   ("suurballes_heuristic", "SBL"); ("suurballes_path_extension_collapse", "SBL-PEC")]%string.

(** What a line of the table of heuristics says about its rows: the mean of the gaps that are finite numbers. *)
Record heur_line_ok (l : list joined) (c : heur_line) : Prop := {
  hl_optimal_count : counts (fun j => j_optimal j = true) l (hl_optimal c);
  hl_feasible_count : counts (fun j => h_feasible (j_heur j) = true) l (hl_feasible c);
  hl_gap_mean : (forall j p, In j l -> j_gap j <> Inf p) -> exists sub gaps, selected (fun j => exists g, j_gap j = Fin g) l sub /\
    Forall2 (fun j g => j_gap j = Fin g) sub gaps /\ is_mean gaps (hl_gap c);
  hl_gap_infinite : (exists j, In j l /\ j_gap j = Inf true) -> (forall j, In j l -> j_gap j <> Inf false) -> hl_gap c = Inf true;
  hl_duration_mean : is_mean (map (fun j => inject_Z (h_duration (j_heur j))) l) (hl_duration c) }.

(** The rows that the table of heuristics is about. *)
Definition heur_kept (d : dataset_name) (sbl_ec_only : bool) (j : joined) : Prop :=
  (sbl_ec_only = true <-> h_algorithm (j_heur j) = "suurballes_extension_collapse"%string) /\
  h_graph (j_heur j) <> "laqtinyA"%string /\
  (d = Tspwplib -> h_cost_function (j_heur j) = "EUC_2D"%string \/ h_cost_function (j_heur j) = "MST"%string).

(** The row of the table of heuristics that belongs to a vial with a result. *)
Definition heur_vial_row (x : full_vial * stored_result) : heur_row :=
  let '(v, r) := x in
  let d := fv_data v in
  let mp := fp_model (fv_params v) in
  let feasible := Z.leb (dc_quota d) (r_prize (st_result r)) in
  mkHeur (dataset_value (dc_dataset d)) (dc_graph_name d) (dc_quota d) (Z.of_nat (dc_root d)) (dc_generation d) (dc_kappa d)
    (dc_cost_function d) (dc_alpha d) (algorithm_value (mp_algorithm (mp_heur mp))) (mp_path_depth_limit (mp_heur mp))
    (mp_step_size (mp_heur mp)) (mp_collapse_paths (mp_heur mp))
    (if feasible then Fin (inject_Z (r_objective (st_result r))) else NaN) feasible (st_end r - st_start r).
(** The columns of the table of branch and cut that bounds are taken from. *)
Definition exact_vial_row (x : full_vial * stored_result * @summary Q) : exact_row :=
  let '(v, _, s) := x in
  let d := fv_data v in
  mkExact (dataset_value (dc_dataset d)) (dc_graph_name d) (dc_quota d) (Z.of_nat (dc_root d)) (dc_generation d) (dc_kappa d)
    (dc_cost_function d) (mp_cc_disjoint (fp_model (fv_params v))) (sm_lower s) (sm_upper s).

(** The columns that the tables of cost cover and tailing off are made of, with the types of their fields; those of the
    parameters may be empty. *)
Inductive field_type := TStr | TInt | TNum | TBool | TTime | TMaybe (t : field_type).
Fixpoint has_type (t : field_type) (x : cell) : Prop :=
  match t with
  | TStr => exists s, x = CStr s
  | TInt => exists z, x = CInt z
  | TNum => exists q, x = CNum q
  | TBool => exists b, x = CBool b
  | TTime => exists z, x = CTime z
  | TMaybe t => x = CNone \/ x = CNaN \/ has_type t x
  end.
Definition columns : list (string * field_type) :=
  [("cost_function", TStr); ("graph_name", TStr); ("quota", TInt); ("alpha", TMaybe TInt);
   ("cost_cover_disjoint_paths", TMaybe TBool); ("cost_cover_shortest_path", TMaybe TBool);
   ("branching_max_depth", TMaybe TInt); ("branching_strategy", TMaybe TInt);
   ("sec_lp_gap_improvement_threshold", TMaybe TNum); ("sec_max_tailing_off_iterations", TMaybe TInt);
   ("status", TInt); ("lower_bound", TNum); ("upper_bound", TNum); ("feasible", TBool); ("duration", TTime);
   ("nconss_presolve_disjoint_paths", TInt); ("nconss_presolve_shortest_paths", TInt); ("num_nodes", TInt);
   ("num_sec_disjoint_tour", TInt); ("num_sec_maxflow_mincut", TInt)]%string.
(** A column is there with its type, is missing, or has another type. *)
Definition col_ok (r : row) (c : string * field_type) : Prop := exists x, rget r (fst c) = Some x /\ has_type (snd c) x.
Definition col_missing (r : row) (c : string * field_type) : Prop := rget r (fst c) = None.
Definition col_wrong (r : row) (c : string * field_type) : Prop := exists x, rget r (fst c) = Some x /\ ~ has_type (snd c) x.
