(** * Spec_Compare: what the list of vials of an experiment should be *)
From Coq Require Import String.
From Verif Require Import Base Graph Spec Spec_ILP Spec_Solve Spec_RunAlg M_Dijkstra M_Solution M_ILP M_MaxFlow M_Solve M_Python M_PyWrap M_Suurballe M_DisjointMap M_RunAlg M_Compare Spec_PyWrap.
Open Scope nat_scope.

(** The experiments that exist for a data set. *)
Definition offered (d : dataset_name) (e : experiment_name) : Prop :=
  match d with
  | Tspwplib => In e [Baseline; CompareHeuristics; CostCover; DisjointToursVsHeuristics; Dryrun; SimpleBranchCut; TailingOff]
  | Londonaq => In e [Baseline; CompareHeuristics; CostCover; CcLondonaqAlpha; Dryrun; LondonaqAlpha; TailingOff]
  end.

(** The heuristics that run_heuristic implements. *)
Definition implemented (a : algorithm_name) : Prop :=
  In a [BfsExtensionCollapse; BfsPathExtensionCollapse; SuurballesHeuristic; SuurballesExtensionCollapse;
        SuurballesPathExtensionCollapse].

(** The parameters are those of an algorithm that run_algorithm runs: branch and cut with all its
    numbers and no or an implemented starting heuristic, or an implemented heuristic. *)
Record runnable (fp : full_params) : Prop := {
  ru_relaxation : fp_relaxation fp = false;
  ru_kind :
    (is_exact (fp_model fp) = true /\ is_heuristic (fp_model fp) = false /\
     mp_algorithm (mp_heur (fp_model fp)) = SolvePctsp /\ options_given (fp_model fp) /\
     forall h, mp_start (fp_model fp) = Some h -> implemented h) \/
    (is_exact (fp_model fp) = false /\ is_heuristic (fp_model fp) = true /\
     implemented (mp_algorithm (mp_heur (fp_model fp))));
  ru_depth : forall z, mp_path_depth_limit (mp_heur (fp_model fp)) = Some z -> fits_int z;
  ru_step : forall z, mp_step_size (mp_heur (fp_model fp)) = Some z -> fits_int z /\ (z < int_max)%Z }.

(** The quota and root of a vial come from the files of its instance; only londonaq instances
    without alpha have a quota of their own. *)
Definition data_from_files (F : problem_files) (d : data_config) : Prop :=
  match dc_dataset d with
  | Tspwplib => exists a g, dc_alpha d = Some a /\ dc_generation d = Some g /\
      dc_quota d = op_quota F g (dc_graph_name d) a /\ dc_root d = op_root F g (dc_graph_name d)
  | Londonaq => dc_cost_function d = laq_cost F (dc_graph_name d) /\ dc_root d = laq_root F (dc_graph_name d) /\
      dc_generation d = None /\ dc_kappa d = None /\
      forall a, dc_alpha d = Some a -> dc_quota d = laq_quota F (dc_graph_name d) a
  end.

(** The number of vials of an experiment, with [g] generations. *)
Definition vial_count (d : dataset_name) (e : experiment_name) (g : nat) : nat :=
  match d, e with
  | Tspwplib, Baseline => 450 * g | Tspwplib, CompareHeuristics => 2250 * g | Tspwplib, CostCover => 1350 * g
  | Tspwplib, DisjointToursVsHeuristics => 324 | Tspwplib, Dryrun => 3 | Tspwplib, SimpleBranchCut => 864
  | Tspwplib, TailingOff => 432 * g
  | Londonaq, Baseline => 20 | Londonaq, CompareHeuristics => 100 | Londonaq, CostCover => 60
  | Londonaq, CcLondonaqAlpha => 60 | Londonaq, Dryrun => 3 | Londonaq, LondonaqAlpha => 100 | Londonaq, TailingOff => 120
  | _, _ => 0
  end.

(** What a run of an exact vial, started with the edges [he], must return: whenever SCIP is
    stopped, a tour through the root with its cost that collects the quota, or nothing if SCIP
    has no solution; if SCIP finished, the least cost of a feasible tour, or nothing if there is
    no feasible tour. *)
Definition solved (L : lab_lib) (tb : tiebreak) (so : list nat -> list nat) (mf : flow_lib) (N : split_names) (depth : nat)
    (D : dgraph) (s : nat) (dist : list (nat * Z)) (paths : list (nat * list nat)) (cm : list (nat * Z))
    (W : pygraph) (G : graph) (c p : list Z) (quota : Z) (root : nat) (mp : model_params) (he : list (nat * nat)) : Prop :=
  exists a bm m st q r, solve_pctsp_args L W he quota root mp cm = Ok a /\
    py_solve_start tb (sa_flags a) (py_edges W) (sa_heur a) (sa_cost a) (sa_prize a) (sa_quota a) root (sa_dist a)
      = Ok (bm, m, st, q, r) /\
    forall entries cbs sols, var_entries (i_graph m) entries ->
      scip_run m (accepted (sa_flags a) (i_graph m) q quota r entries) cbs sols ->
      exists st' out x,
        py_solve tb (sa_flags a) mf (py_edges W) (sa_heur a) (sa_cost a) (sa_prize a) (sa_quota a) root (sa_dist a)
          entries cbs sols = Ok (st', out) /\
        run_algorithm L tb so mf N depth D s dist paths W quota root mp entries cbs sols = Ok x /\
        ((sols = [] /\ empty_result (r_edges x) (r_objective x) (r_prize x)) \/
         tour_result G c p root (r_edges x) (r_objective x) (r_prize x) /\ (quota <= r_prize x)%Z) /\
        (scip_finished m (accepted (sa_flags a) (i_graph m) q quota r entries) (bc_rows st) (bc_rows st') sols ->
         tour_result G c p root (r_edges x) (r_objective x) (r_prize x) /\ (quota <= r_prize x)%Z /\
           (forall t z, feasible_tour G c p quota root t z -> (r_objective x <= z)%Z) \/
         empty_result (r_edges x) (r_objective x) (r_prize x) /\ forall t z, ~ feasible_tour G c p quota root t z).

(** *** The settings of the experiments, written out *)

(** Branch and cut: depth limit of strong branching 1, separation at every node with a gap of at
    least 1/1000, both separators of subtours. *)
Definition exact_setting (strategy tail : Z) (collapse cc_disjoint cc_shortest : bool) (start : algorithm_name)
    (step : Z) : full_params :=
  mkFull (mkModel true false (mkParams SolvePctsp (Some collapse) None (Some step)) (Some start)
    (Some cc_disjoint) (Some cc_shortest) (Some true) (Some true) (Some 1%Z) (Some strategy) (Some tail) (Some 1%Z) (Some 1%Z)
    (Some 14400%Z)) false.

(** Branch and cut without start, and heuristics. *)
Definition plain_exact_setting (time_limit : Z) : full_params :=
  mkFull (mkModel true false (mkParams SolvePctsp None None None) None (Some false) (Some false) (Some true) (Some true)
    (Some (-1)%Z) (Some 0%Z) (Some (-1)%Z) (Some 1%Z) (Some 1%Z) (Some time_limit)) false.
Definition heuristic_setting (a : algorithm_name) (collapse : option bool) (depth step : option Z) : full_params :=
  mkFull (mkModel false true (mkParams a collapse depth step) None None None None None None None None None None None) false.
Definition relaxation_setting (a : algorithm_name) : full_params :=
  mkFull (mkModel false false (mkParams a None None None) None None None None None None None None None None None) true.

(** The parameters that every instance of an experiment gets, in order. *)
Definition settings (e : experiment_name) : list full_params :=
  let bfs := heuristic_setting BfsExtensionCollapse (Some false) (Some 2%Z) (Some 1%Z) in
  let suurballe := heuristic_setting SuurballesHeuristic None None None in
  match e with
  | Baseline => [exact_setting 2 5 false false false BfsExtensionCollapse 1]
  | CostCover | CcLondonaqAlpha =>
      map (fun '(dp, sp) => exact_setting 2 5 true dp sp SuurballesPathExtensionCollapse 10)
        [(false, false); (true, false); (false, true)]
  | TailingOff =>
      map (fun '(strategy, tail) => exact_setting strategy tail true true false SuurballesPathExtensionCollapse 10)
        [(2, -1); (2, 5); (2, 10); (4, -1); (4, 5); (4, 10)]%Z
  | Dryrun => [bfs; suurballe; plain_exact_setting 10]
  | SimpleBranchCut => [bfs; suurballe; plain_exact_setting 14400]
  | DisjointToursVsHeuristics => [relaxation_setting DisjointToursRelaxation; bfs; suurballe]
  | CompareHeuristics | LondonaqAlpha =>
      [bfs; heuristic_setting BfsPathExtensionCollapse (Some true) None (Some 10%Z);
       heuristic_setting SuurballesExtensionCollapse (Some false) (Some 2%Z) (Some 1%Z);
       heuristic_setting SuurballesPathExtensionCollapse (Some true) None (Some 10%Z); suurballe]
  | Onerun => []
  end.

(** The instances of tspwplib with their quota (a percentage alpha of the total prize) and root. *)
Definition tsp_instance (F : problem_files) (alphas : list Z) (kappas : list (option Z)) (gens names costs : list string)
    (x : data_config) : Prop :=
  exists alpha kappa gen name cost, In alpha alphas /\ In kappa kappas /\ In gen gens /\ In name names /\ In cost costs /\
    x = mkData Tspwplib cost name (op_quota F gen name alpha) (op_root F gen name) (Some alpha) (Some gen) kappa (Some 0%Z).

(** The instances of an experiment. *)
Definition instance_of (F : problem_files) (d : dataset_name) (e : experiment_name) (x : data_config) : Prop :=
  let all := all_generations F in
  let three := ["gen1"; "gen2"; "gen3"]%string in
  let nine := ["eil51"; "st70"; "rat195"; "tsp225"; "a280"; "pr439"; "rat575"; "gr666"; "pr1002"]%string in
  let both := ["EUC_2D"; "MST"]%string in
  let laq := ["laqbbA"; "laqidA"; "laqkxA"; "laqwsA"]%string in
  match d with
  | Tspwplib =>
    match e with
    | Baseline | CostCover | CompareHeuristics =>
        tsp_instance F [5; 10; 25; 50; 75] [Some 5; Some 10; Some 15; Some 20; Some 25] all nine both x
    | TailingOff => tsp_instance F [25; 75] [Some 10; Some 20] all nine both x
    | DisjointToursVsHeuristics =>
        tsp_instance F [25; 50; 75] [Some 5; Some 10; Some 15; Some 20] three ["st70"; "rat195"; "a280"]%string ["EUC_2D"]%string x
    | SimpleBranchCut =>
        tsp_instance F [25; 50; 75] [None; Some 10; Some 20; Some 30] three ["st70"; "rat195"; "pr152"; "gr229"]%string both x
    | Dryrun => tsp_instance F [50] [Some 10] ["gen1"]%string ["st70"]%string ["EUC_2D"]%string x
    | _ => False
    end
  | Londonaq =>
    match e with
    | Baseline | CostCover | CompareHeuristics | TailingOff =>
        exists quota name, In quota [1000; 2000; 3000; 4000; 5000] /\ In name laq /\
          x = mkData Londonaq (laq_cost F name) name quota (laq_root F name) None None None None
    | CcLondonaqAlpha | LondonaqAlpha =>
        exists alpha name, In alpha [5; 10; 25; 50; 75] /\ In name laq /\
          x = mkData Londonaq (laq_cost F name) name (laq_quota F name alpha) (laq_root F name) (Some alpha) None None None
    | Dryrun => x = mkData Londonaq (laq_cost F "laqtinyA") "laqtinyA" 200 (laq_root F "laqtinyA") None None None None
    | _ => False
    end
  end%Z.
