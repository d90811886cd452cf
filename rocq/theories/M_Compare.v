(** * M_Compare: the lists of vials of the experiments (pctsp/compare/*.py), the selection of an
    experiment (pctsp/apps/main_app.py:86-126) and the parameters of the commands londonaq and
    tsplib (main_app.py:439-456,536-561). *)
From Coq Require Import String.
From Verif Require Import Base M_Python M_PyWrap M_RunAlg.
Open Scope nat_scope.

(** DatasetName, vial/data_config.py:10-15. *)
Inductive dataset_name := Londonaq | Tspwplib.

(** ExperimentName, vial/experiment.py:10-24. *)
Inductive experiment_name :=
| Baseline | CostCover | DisjointToursVsHeuristics | CcLondonaqAlpha | Dryrun | CompareHeuristics
| LondonaqAlpha | Onerun | SimpleBranchCut | TailingOff.

(** DataConfig, vial/data_config.py:21-32. The enumerations of tspwplib (graph names, generations,
    edge weight types) are strings. *)
Record data_config := mkData {
  dc_dataset : dataset_name; dc_cost_function : string; dc_graph_name : string;
  dc_quota : Z; dc_root : nat; dc_alpha : option Z; dc_generation : option string;
  dc_kappa : option Z; dc_triangle : option Z }.

(** The files of the two data sets (read by tspwplib, not in /repo; product_of_params.py:50-51,74-77,99-102):
    quota for a value of alpha, root and cost function of an instance. [all_generations] is
    list(Generation). *)
Record problem_files := mkFiles {
  op_quota : string -> string -> Z -> Z; op_root : string -> string -> nat;
  laq_quota : string -> Z -> Z; laq_root : string -> nat; laq_cost : string -> string;
  all_generations : list string }.

(** ModelParams, vial/model_params.py:72-92. The fields read by run_algorithm are [fp_model] (see
    M_RunAlg); the threshold for the gap is counted in thousandths. *)
Record full_params := mkFull { fp_model : model_params; fp_relaxation : bool }.

(** Vial, vial/vial.py:14-23. *)
Record full_vial := mkFullVial {
  fv_uuid : nat; fv_data : data_config; fv_params : full_params; fv_pre : preprocessing }.

(** EXACT_ALGORITHMS, vial/model_params.py:50. *)
Definition in_exact (a : algorithm_name) : bool := match a with SolvePctsp => true | _ => false end.

(** HEURISTIC_ALGORITHMS, vial/model_params.py:51-58. *)
Definition in_heuristic (a : algorithm_name) : bool :=
  match a with
  | Extension | BfsExtensionCollapse | BfsPathExtensionCollapse | SuurballesExtensionCollapse
  | SuurballesHeuristic | SuurballesPathExtensionCollapse => true
  | _ => false
  end.

(** RELAXATION_ALGORITHMS, vial/model_params.py:59. *)
Definition in_relaxation (a : algorithm_name) : bool :=
  match a with DisjointToursRelaxation => true | _ => false end.

(** [itertools.product(a, b)] (product_of_params.py:80,105; Python): the last factor changes fastest. *)
Definition product2 {A B} (a : list A) (b : list B) : list (A * B) :=
  flat_map (fun x => map (fun y => (x, y)) b) a.

(** [itertools.product(a, b, c)] (product_of_params.py:170-174,195-197). *)
Definition product3 {A B C} (a : list A) (b : list B) (c : list C) : list (A * B * C) :=
  flat_map (fun x => flat_map (fun y => map (fun z => (x, y, z)) c) b) a.

(** [kappa if kappa else None] (product_of_params.py:57): 0 and None give None. *)
Definition or_none (k : option Z) : option Z :=
  match k with Some z => if Z.eqb z 0 then None else Some z | None => None end.

(** product_of_tspwplib_data_config, product_of_params.py:33-65. The product of five lists is
    nested, which gives the same order. *)
Definition product_of_tspwplib_data_config (F : problem_files) (alpha_list : list Z) (kappa_list : list (option Z))
    (generation_list graph_name_list cost_function_list : list string) : list data_config :=
  map (fun '(alpha, kappa, (generation, graph_name, cost_function)) =>
    mkData Tspwplib cost_function graph_name (op_quota F generation graph_name alpha) (op_root F generation graph_name)
      (Some alpha) (Some generation) (or_none kappa) (Some 0%Z))
    (product3 alpha_list kappa_list (product3 generation_list graph_name_list cost_function_list)).

(** product_of_londonaq_data_config, product_of_params.py:68-90. *)
Definition product_of_londonaq_data_config (F : problem_files) (quota_list : list Z) (graph_name_list : list string)
    : list data_config :=
  map (fun '(quota, name) => mkData Londonaq (laq_cost F name) name quota (laq_root F name) None None None None)
    (product2 quota_list graph_name_list).

(** product_of_londonaq_data_config_from_alpha, product_of_params.py:93-116. *)
Definition product_of_londonaq_data_config_from_alpha (F : problem_files) (alpha_list : list Z) (graph_name_list : list string)
    : list data_config :=
  map (fun '(alpha, name) =>
    mkData Londonaq (laq_cost F name) name (laq_quota F name alpha) (laq_root F name) (Some alpha) None None None)
    (product2 alpha_list graph_name_list).

(** FOUR_HOURS, constants/constants.py:7 (in seconds). *)
Definition four_hours : Z := 14400%Z.
(** LP_GAP_IMPROVEMENT_THRESHOLD, constants/constants.py:8 (in thousandths). *)
Definition lp_gap_threshold : Z := 1%Z.
(** SEC_MAX_TAILING_OFF_ITER, constants/constants.py:14. *)
Definition max_tailing_off : Z := 5%Z.
(** STRONG_BRANCHING_MAX_DEPTH, constants/constants.py:15. *)
Definition strong_max_depth : Z := 1%Z.

(** BranchingStrategy.RELPSCOST, vial/model_params.py:62-65. *)
Definition relpscost : Z := 0%Z.
(** BranchingStrategy.STRONG_AT_TREE_TOP, vial/model_params.py:67. *)
Definition strong_at_tree_top : Z := 2%Z.
(** BranchingStrategy.DEFAULT, vial/model_params.py:68. *)
Definition default_branching : Z := 4%Z.

(** [AlgorithmName.bfs_extension_collapse in (algorithm, heuristic)] (product_of_params.py:147-150,
    main_app.py:555-558). *)
Definition uses_bfs_extension (a : algorithm_name) (start : option algorithm_name) : bool :=
  match a, start with
  | BfsExtensionCollapse, _ => true
  | _, Some BfsExtensionCollapse => true
  | _, _ => false
  end.

(** product_of_model_params, product_of_params.py:119-156. The starting heuristic is None
    throughout. *)
Definition product_of_model_params (algorithm_list : list algorithm_name) (collapse_paths : bool)
    (path_depth_limit step_size time_limit : Z) : list full_params :=
  map (fun a =>
    let heur := if uses_bfs_extension a None
                then mkParams a (Some collapse_paths) (Some path_depth_limit) (Some step_size)
                else mkParams a None None None in
    mkFull
      (if in_exact a
       then mkModel (in_exact a) (in_heuristic a) heur None (Some false) (Some false) (Some true) (Some true)
              (Some (-1)%Z) (Some relpscost) (Some (-1)%Z) (Some 1%Z) (Some lp_gap_threshold) (Some time_limit)
       else mkModel (in_exact a) (in_heuristic a) heur None None None None None None None None None None None)
      (in_relaxation a)) algorithm_list.

(** product_of_preprocessing, product_of_params.py:159-184. *)
Definition product_of_preprocessing (components leaves one_connected : list bool) : list preprocessing :=
  map (fun '(c, l, o) => mkPre c l o false false) (product3 components leaves one_connected).

(** product_of_vials, product_of_params.py:187-206; [uuid i] is the result of the i-th call of uuid4. *)
Definition product_of_vials (uuid : nat -> nat) (data : list data_config) (params : list full_params)
    (pre : list preprocessing) : list full_vial :=
  let combinations := product3 data params pre in
  map (fun '(i, (d, m, p)) => mkFullVial (uuid i) d m p) (combine (seq 0 (List.length combinations)) combinations).

(** LONDONAQ_QUOTA_LIST, compare/params.py:7. *)
Definition londonaq_quota_list : list Z := [1000; 2000; 3000; 4000; 5000]%Z.
(** LONDONAQ_GRAPH_NAME_LIST, compare/params.py:8-13. *)
Definition londonaq_graph_name_list : list string := ["laqbbA"; "laqidA"; "laqkxA"; "laqwsA"]%string.
(** TSPLIB_ALPHA_LIST, compare/params.py:15. *)
Definition tsplib_alpha_list : list Z := [5; 10; 25; 50; 75]%Z.
(** TSPLIB_COST_FUNCTIONS, compare/params.py:16-19. *)
Definition tsplib_cost_functions : list string := ["EUC_2D"; "MST"]%string.
(** TSPLIB_KAPPA_LIST, compare/params.py:20. *)
Definition tsplib_kappa_list : list (option Z) := [Some 5; Some 10; Some 15; Some 20; Some 25]%Z.
(** TSPLIB_GRAPH_NAME_LIST, compare/params.py:21-31. *)
Definition tsplib_graph_name_list : list string :=
  ["eil51"; "st70"; "rat195"; "tsp225"; "a280"; "pr439"; "rat575"; "gr666"; "pr1002"]%string.

(** The preprocessing of every experiment (dryrun_experiment.py:54, exact_experiment.py:56,122,224,239,294,
    heuristic_experiment.py:80,107, relaxation_experiment.py:50). *)
Definition experiment_preprocessing : list preprocessing := product_of_preprocessing [false] [false] [true].

(** A ModelParams for branch and cut with all options, exact_experiment.py:100-119,134-194,272-291. *)
Definition exact_params (depth strategy tail gap : Z) (collapse : bool) (cc_disjoint cc_shortest : bool)
    (heuristic : algorithm_name) (depth_limit : option Z) (step : Z) : full_params :=
  mkFull (mkModel true false (mkParams SolvePctsp (Some collapse) depth_limit (Some step)) (Some heuristic)
    (Some cc_disjoint) (Some cc_shortest) (Some true) (Some true)
    (Some depth) (Some strategy) (Some tail) (Some 1%Z) (Some gap) (Some four_hours)) false.

(** The model parameters of the experiment tailing_off, exact_experiment.py:60-64,74-75,83-84,91-120: the parameters
    do not depend on the data set. *)
Definition tailing_off_params : list full_params :=
  map (fun '(strategy, tail) => exact_params strong_max_depth strategy tail lp_gap_threshold true true false
         SuurballesPathExtensionCollapse None 10%Z)
    (product2 [strong_at_tree_top; default_branching] [(-1)%Z; max_tailing_off; 10%Z]).

(** __get_cc_params, exact_experiment.py:126-199. *)
Definition cc_params : list full_params :=
  map (fun '(disjoint, shortest) =>
    exact_params strong_max_depth strong_at_tree_top max_tailing_off lp_gap_threshold true disjoint shortest
      SuurballesPathExtensionCollapse None 10%Z)
    [(false, false); (true, false); (false, true)].

(** The parameters of the experiment baseline, exact_experiment.py:245-249,270-293. *)
Definition baseline_params : list full_params :=
  [exact_params strong_max_depth strong_at_tree_top max_tailing_off lp_gap_threshold false false false
     BfsExtensionCollapse None 1%Z].

(** get_all_heuristic_params, heuristic_experiment.py:24-69. *)
Definition all_heuristic_params : list full_params :=
  map (fun '(a, collapse, depth, step) =>
    mkFull (mkModel false true (mkParams a collapse depth step) None None None None None None None None None None None) false)
    [(BfsExtensionCollapse, Some false, Some 2%Z, Some 1%Z);
     (BfsPathExtensionCollapse, Some true, None, Some 10%Z);
     (SuurballesExtensionCollapse, Some false, Some 2%Z, Some 1%Z);
     (SuurballesPathExtensionCollapse, Some true, None, Some 10%Z);
     (SuurballesHeuristic, None, None, None)].

(** The data that most experiments share (exact_experiment.py:204-218,251-265,
    heuristic_experiment.py:88-102). *)
Definition shared_data (F : problem_files) (d : dataset_name) : list data_config :=
  match d with
  | Tspwplib => product_of_tspwplib_data_config F tsplib_alpha_list tsplib_kappa_list (all_generations F)
                  tsplib_graph_name_list tsplib_cost_functions
  | Londonaq => product_of_londonaq_data_config F londonaq_quota_list londonaq_graph_name_list
  end.

(** The function of an experiment: dryrun (dryrun_experiment.py:25-55), simple_branch_cut, tailing_off,
    cost_cover, cc_londonaq_alpha, baseline (exact_experiment.py:33-57,60-123,202-295), londonaq_alpha,
    compare_heuristics (heuristic_experiment.py:73-110), disjoint_tours_vs_heuristics
    (relaxation_experiment.py:25-51). [None]: there is no such function (onerun). *)
Definition experiment_function (F : problem_files) (uuid : nat -> nat) (e : experiment_name)
    : option (dataset_name -> res (list full_vial)) :=
  let vials data params := Ok (product_of_vials uuid data params experiment_preprocessing) in
  match e with
  | Dryrun => Some (fun d =>
      let params := product_of_model_params [BfsExtensionCollapse; SuurballesHeuristic; SolvePctsp] false 2 1 10 in
      match d with
      | Tspwplib => vials (product_of_tspwplib_data_config F [50%Z] [Some 10%Z] ["gen1"%string] ["st70"%string] ["EUC_2D"%string]) params
      | Londonaq => vials (product_of_londonaq_data_config F [200%Z] ["laqtinyA"%string]) params
      end)
  | SimpleBranchCut => Some (fun d =>
      let params := product_of_model_params [BfsExtensionCollapse; SuurballesHeuristic; SolvePctsp] false 2 1 four_hours in
      match d with
      | Tspwplib => vials (product_of_tspwplib_data_config F [25; 50; 75]%Z [None; Some 10; Some 20; Some 30]%Z
          ["gen1"; "gen2"; "gen3"]%string ["st70"; "rat195"; "pr152"; "gr229"]%string tsplib_cost_functions) params
      | Londonaq => Throw ValueErrorPy
      end)
  | TailingOff => Some (fun d =>
      vials (match d with
             | Tspwplib => product_of_tspwplib_data_config F [25; 75]%Z [Some 10; Some 20]%Z (all_generations F)
                             tsplib_graph_name_list tsplib_cost_functions
             | Londonaq => product_of_londonaq_data_config F londonaq_quota_list londonaq_graph_name_list
             end) tailing_off_params)
  | CostCover => Some (fun d => vials (shared_data F d) cc_params)
  | CcLondonaqAlpha => Some (fun d =>
      match d with
      | Londonaq => vials (product_of_londonaq_data_config_from_alpha F tsplib_alpha_list londonaq_graph_name_list) cc_params
      | Tspwplib => Throw ValueErrorPy
      end)
  | Baseline => Some (fun d => vials (shared_data F d) baseline_params)
  | LondonaqAlpha => Some (fun _ =>
      vials (product_of_londonaq_data_config_from_alpha F tsplib_alpha_list londonaq_graph_name_list) all_heuristic_params)
  | CompareHeuristics => Some (fun d => vials (shared_data F d) all_heuristic_params)
  | DisjointToursVsHeuristics => Some (fun d =>
      let params := product_of_model_params [DisjointToursRelaxation; BfsExtensionCollapse; SuurballesHeuristic] false 2 1 four_hours in
      match d with
      | Tspwplib => vials (product_of_tspwplib_data_config F [25; 50; 75]%Z [Some 5; Some 10; Some 15; Some 20]%Z
          ["gen1"; "gen2"; "gen3"]%string ["st70"; "rat195"; "a280"]%string ["EUC_2D"]%string) params
      | Londonaq => Throw ValueErrorPy
      end)
  | Onerun => None
  end.

(** [experiment_name in tsplib_experiment_lookup], main_app.py:86-94. *)
Definition in_tsplib_lookup (e : experiment_name) : bool :=
  match e with
  | Baseline | CompareHeuristics | CostCover | DisjointToursVsHeuristics | Dryrun | SimpleBranchCut | TailingOff => true
  | _ => false
  end.

(** [experiment_name in londonaq_experiment_lookup], main_app.py:96-104. *)
Definition in_londonaq_lookup (e : experiment_name) : bool :=
  match e with
  | Baseline | CompareHeuristics | CostCover | CcLondonaqAlpha | Dryrun | LondonaqAlpha | TailingOff => true
  | _ => false
  end.

(** The vials of the lab and setup commands, main_app.py:107-126,139-145,175-181: select_root_and_lookup
    and the call of the function found. A missing function would be a KeyError. *)
Definition experiment_vials (F : problem_files) (uuid : nat -> nat) (d : dataset_name) (e : experiment_name)
    : res (list full_vial) :=
  let known := match d with Tspwplib => in_tsplib_lookup e | Londonaq => in_londonaq_lookup e end in
  if known then
    match experiment_function F uuid e with Some f => f d | None => Throw KeyErrorPy end
  else Throw ValueErrorPy.

(** The model parameters of the tsplib command, main_app.py:536-561. *)
Definition tsplib_params (algorithm : algorithm_name) (branching_max_depth : Z) (collapse_paths : bool)
    (cost_cover_disjoint_paths cost_cover_shortest_path : bool) (heuristic : option algorithm_name)
    (path_depth_limit step_size lp_gap tailing_off time_limit : Z) : full_params :=
  let start := if in_exact algorithm then heuristic else None in
  let heur := if uses_bfs_extension algorithm start
              then mkParams algorithm (Some collapse_paths) (Some path_depth_limit) (Some step_size)
              else mkParams algorithm None None None in
  mkFull
    (if in_exact algorithm
     then mkModel true (in_heuristic algorithm) heur start (Some cost_cover_disjoint_paths) (Some cost_cover_shortest_path)
            (Some true) (Some true) (Some branching_max_depth) (Some strong_at_tree_top) (Some tailing_off) (Some 1%Z)
            (Some lp_gap) (Some time_limit)
     else mkModel false (in_heuristic algorithm) heur start None None None None None None None None None None)
    (in_relaxation algorithm).

(** The model parameters of the londonaq command, main_app.py:439-456. *)
Definition londonaq_params (algorithm : algorithm_name) (cost_cover_disjoint_paths cost_cover_shortest_path : bool)
    (time_limit : Z) : full_params :=
  let heur := mkParams algorithm None None None in
  mkFull
    (if in_exact algorithm
     then mkModel true (in_heuristic algorithm) heur None (Some cost_cover_disjoint_paths) (Some cost_cover_shortest_path)
            (Some true) (Some true) (Some strong_max_depth) (Some strong_at_tree_top) (Some (-1)%Z) (Some 1%Z)
            (Some lp_gap_threshold) (Some time_limit)
     else mkModel false (in_heuristic algorithm) heur None None None None None None None None None None None)
    (in_relaxation algorithm).
