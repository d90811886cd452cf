(** * M_Settings: the settings of branch and cut on their way from a vial to SCIP
    (pctsp/lab/run_algorithm.py:218-242, pctsp/algorithms/algorithms.py:25-109, pctsp/pypctsp.cpp:34-110,
    src/algorithms.cpp:117-311, src/branching.cpp). The instance itself is in M_RunAlg and M_Solve. *)
From Coq Require Import String.
From Verif Require Import Base M_PyWrap M_Solve M_RunAlg M_Logger M_Plugins.
From Verif Require M_Branching.
Open Scope string_scope.
Open Scope list_scope.
Open Scope Z_scope.

(** ** Numbers *)

(** A floating-point number (a Python float, pypctsp.cpp:57; SCIP's [SCIP_Real]): [dy_m] times 2 to the power [dy_e]. *)
Record dyadic := mkDy { dy_m : Z; dy_e : Z }.

(** The limit on the time is a [float] in C++ (pypctsp.cpp:57, algorithms.cpp:139): the nearest number with 24 binary digits, of two
    as near the one whose last digit is 0. Simplification: the exponent is not limited. *)
Definition to_float (x : dyadic) : dyadic :=
  let a := Z.abs (dy_m x) in
  let k := Z.log2 a + 1 - 24 in
  if k <=? 0 then x
  else
    let q := a / 2 ^ k in
    let r := a mod 2 ^ k in
    let h := 2 ^ (k - 1) in
    let q := if r <? h then q else if h <? r then q + 1 else if Z.even q then q else q + 1 in
    mkDy (Z.sgn (dy_m x) * q) (dy_e x + k).

(** Comparison with an integer, for the range of a parameter (algorithms.cpp:200; SCIP). *)
Definition dy_le (x : dyadic) (z : Z) : bool :=
  if 0 <=? dy_e x then dy_m x * 2 ^ dy_e x <=? z else dy_m x <=? z * 2 ^ (- dy_e x).

(** The limit on the time that SCIP starts with, and the greatest that it takes (algorithms.cpp:200; SCIP). *)
Definition no_limit : Z := 10 ^ 20.

(** [SCIPsetRealParam(scip, "limits/time", t)] (algorithms.cpp:200): a value below 0 or above 1e20 is refused with an error, which
    is not looked at; the parameter keeps the value [old]. *)
Definition set_time (old t : dyadic) : dyadic := if ((0 <=? dy_m t) && dy_le t no_limit)%bool then t else old.

(** ** From Python *)

(** The arguments of solve_pctsp with defaults, without disjoint_paths_cost (algorithms.py:31-46). [ps_gap] is not computed with
    and counted in thousandths; None is possible where the model parameters of a vial have it (vial/model_params.py:79-92). *)
Record py_settings := mkPy {
  ps_max_depth : option Z; ps_strategy : option Z; ps_cc_disjoint : option bool; ps_cc_shortest : option bool;
  ps_cycle_cover : option bool; ps_level : option Z; ps_name : string; ps_dir : string; ps_sec_disjoint : option bool;
  ps_gap : option Z; ps_maxflow : option bool; ps_tailing : option Z; ps_sepafreq : option Z; ps_simple : option bool;
  ps_time : option dyadic }.

(** The defaults, algorithms.py:31-46 (constants.py:7-8, logging.INFO is 20). *)
Definition py_defaults : py_settings :=
  mkPy (Some (-1)) (Some 0) (Some false) (Some false) (Some false) (Some 20) "pctsp" "." (Some true) (Some 1) (Some true)
    (Some (-1)) (Some 1) (Some false) (Some (mkDy 14400 0)).

(** The call in run_algorithm.py:219-240 for a vial; [uuid], [vial_dir] and [level] as text, path and level of the logger. A limit
    on the time in whole seconds (see M_Compare). *)
Definition vial_settings (mp : model_params) (uuid vial_dir : string) (level : Z) : py_settings :=
  mkPy (mp_branching_max_depth mp) (mp_branching_strategy mp) (mp_cc_disjoint mp) (mp_cc_shortest mp) (ps_cycle_cover py_defaults)
    (Some level) uuid vial_dir (mp_sec_disjoint mp) (mp_lp_gap mp) (mp_sec_maxflow mp) (mp_tailing_off mp) (mp_sepafreq mp)
    (ps_simple py_defaults) (option_map (fun t => mkDy t 0) (mp_time_limit mp)).

(** ** In C++ *)

(** The settings of solvePrizeCollectingTSP, algorithms.cpp:125-139, without the distances. *)
Record cpp_settings := mkCpp {
  cs_max_depth : Z; cs_strategy : Z; cs_cc_disjoint : bool; cs_cc_shortest : bool; cs_cycle_cover : bool; cs_name : string;
  cs_sec_disjoint : bool; cs_gap : Z; cs_maxflow : bool; cs_tailing : Z; cs_sepafreq : Z; cs_simple : bool; cs_dir : string;
  cs_time : dyadic }.

(** The default arguments, algorithms.hh:173-188. *)
Definition cpp_defaults : cpp_settings :=
  mkCpp (-1) M_Branching.S_STRONG false false false "pctsp" true 10 true (-1) 1 true "./pctsp" (mkDy 14400 0).

(** The branching rules after includeBranchRules (branching.cpp:18-22) in a new SCIP, with the priorities and depths of SCIP. *)
Definition simple_rules : list M_Branching.rule :=
  [M_Branching.mkRule M_Branching.FULL_STRONG 0 (-1); M_Branching.mkRule M_Branching.RELPSCOST 10000 (-1);
   M_Branching.mkRule M_Branching.MOST_INFEASIBLE 100 (-1)].

(** What SCIP and the logger know of the settings when [SCIPsolve] is called: the filter of the log, the name of the problem, the
    directory of the files, the branching rules, the two parameters that are set, the threshold in the subtour handler, and what
    the handlers are made from (M_Plugins). (logger.cpp:38-40, algorithms.cpp:142-207,290) *)
Record solver := mkSolver {
  sv_log : Z; sv_name : string; sv_dir : string; sv_rules : list M_Branching.rule; sv_time : dyadic; sv_maxrounds : Z;
  sv_gap : Z; sv_options : options }.

(** The constructor of the subtour handler, subtour_elimination.hh:225-245: the threshold, and the parts of the options that the
    handler keeps. *)
Definition subtour_settings (sec_disjoint_tour : bool) (sec_lp_gap_improvement_threshold : Z) (sec_maxflow_mincut : bool)
    (sec_max_tailing_off_iterations sec_sepafreq : Z) : Z * (bool * bool * Z * Z) :=
  (sec_lp_gap_improvement_threshold, (sec_disjoint_tour, sec_maxflow_mincut, sec_max_tailing_off_iterations, sec_sepafreq)).

(** modelPrizeCollectingTSP, algorithms.cpp:240-311: the name, the rules (255-277), the subtour handler (293-300), and the rounds of
    presolving (304). [defaults]: the rules of [SCIPincludeDefaultPlugins]. *)
Definition model_settings (defaults : list M_Branching.rule) (name : string) (sec_disjoint_tour : bool)
    (sec_lp_gap_improvement_threshold : Z) (sec_maxflow_mincut : bool) (sec_max_tailing_off_iterations sec_sepafreq : Z)
    (simple_rules_only : bool) : string * list M_Branching.rule * (Z * (bool * bool * Z * Z)) * Z :=
  let rules := if simple_rules_only then simple_rules else defaults in
  let sec := subtour_settings sec_disjoint_tour sec_lp_gap_improvement_threshold sec_maxflow_mincut
               sec_max_tailing_off_iterations sec_sepafreq in
  (name, rules, sec, 0).

(** solvePrizeCollectingTSP, algorithms.cpp:117-207, on a new SCIP whose log has the filter [log]. *)
Definition solve_settings (log : Z) (defaults : list M_Branching.rule) (cs : cpp_settings) : res solver :=
  let '(name, rules, (gap, (disjoint, maxflow, tailing, sepafreq)), maxrounds) :=
    model_settings defaults (cs_name cs) (cs_sec_disjoint cs) (cs_gap cs) (cs_maxflow cs) (cs_tailing cs) (cs_sepafreq cs)
      (cs_simple cs) in
  do rules <- M_Branching.set_branching_strategy (cs_strategy cs) (cs_max_depth cs) rules;
  Ok (mkSolver log name (cs_dir cs) rules (set_time (mkDy no_limit 0) (cs_time cs)) maxrounds gap
        (mkOptions (mkFlags (cs_cc_disjoint cs) (cs_cc_shortest cs) (cs_cycle_cover cs) disjoint maxflow) tailing sepafreq
           (cs_simple cs))).

(** pySolvePrizeCollectingTSP, pypctsp.cpp:34-110: the arguments converted by pybind11 in their order (see M_RunAlg), the level
    (59), and the call (85-108). *)
Definition bind_settings (defaults : list M_Branching.rule) (branching_max_depth branching_strategy : option Z)
    (cost_cover_disjoint_paths cost_cover_shortest_path cycle_cover : option bool) (log_level_py : option Z) (name : string)
    (sec_disjoint_tour : option bool) (sec_lp_gap_improvement_threshold : option Z) (sec_maxflow_mincut : option bool)
    (sec_max_tailing_off_iterations sec_sepafreq : option Z) (simple_rules_only : option bool) (solver_dir : string)
    (time_limit : option dyadic) : res solver :=
  do depth <- py_arg_int branching_max_depth;
  do strategy <- py_arg_unsigned branching_strategy;
  do level <- py_arg_int log_level_py;
  do gap <- py_arg_float sec_lp_gap_improvement_threshold;
  do tailing <- py_arg_int sec_max_tailing_off_iterations;
  do sepafreq <- py_arg_int sec_sepafreq;
  do time <- match time_limit with Some t => Ok (to_float t) | None => Throw TypeErrorPy end;
  solve_settings (boost_level_from_py level) defaults
    (mkCpp depth strategy (py_bool cost_cover_disjoint_paths) (py_bool cost_cover_shortest_path) (py_bool cycle_cover) name
       (py_bool sec_disjoint_tour) gap (py_bool sec_maxflow_mincut) tailing sepafreq (py_bool simple_rules_only) solver_dir time).

(** solve_pctsp, algorithms.py:81-109: without costs of disjoint paths the cost cover is switched off; the arguments by
    position. *)
Definition py_solve_settings (defaults : list M_Branching.rule) (disjoint_paths_cost : list (nat * Z)) (ps : py_settings)
    : res solver :=
  let cost_cover_disjoint_paths := match disjoint_paths_cost with [] => Some false | _ => ps_cc_disjoint ps end in
  bind_settings defaults (ps_max_depth ps) (ps_strategy ps) cost_cover_disjoint_paths (ps_cc_shortest ps) (ps_cycle_cover ps)
    (ps_level ps) (ps_name ps) (ps_sec_disjoint ps) (ps_gap ps) (ps_maxflow ps) (ps_tailing ps) (ps_sepafreq ps) (ps_simple ps)
    (ps_dir ps) (ps_time ps).
