(** * Properties_Settings: C74, the settings of a run reach the solver *)
From Coq Require Import String QArith Qabs.
From Verif Require Import Base M_PyWrap M_Branching M_Solution M_ILP M_Solve M_RunAlg M_Logger M_Compare M_Dijkstra M_Plugins M_Settings Spec_PyWrap Spec_Branching
  Spec_RunAlg Spec_Compare Spec_Plugins Spec_Settings P_Settings P_Settings2 P_Settings3 Properties_Branching Properties_Compare Properties_Plugins.
Open Scope string_scope.
Open Scope list_scope.
Open Scope Z_scope.

(** ** From Python to SCIP *)

(** If all numbers are there and fit their types, every setting arrives at its place: names, switches, the limits, the separation,
    the branching rules in the order of the strategy. *)
Theorem C74_reaches : forall defaults dist ps, numbers_given ps -> (ps_simple ps = Some true \/ good_rules defaults) ->
  exists sv, py_solve_settings defaults dist ps = Ok sv /\ arrived dist ps sv /\ branching_arrived defaults ps sv.
Proof. exact settings_arrive. Qed.
Print Assumptions C74_reaches.

(** Otherwise there is a TypeError, before anything is solved. *)
Theorem C74_type_error : forall defaults dist ps, ~ numbers_given ps -> py_solve_settings defaults dist ps = Throw TypeErrorPy.
Proof. exact settings_missing. Qed.
Print Assumptions C74_type_error.

(** Strong branching at the top of the tree needs the rule fullstrong among those of SCIP. *)
Theorem C74_null : forall defaults dist ps, numbers_given ps -> ps_simple ps <> Some true -> ps_strategy ps = Some 2 ->
  ~ In "fullstrong" (map r_name defaults) -> py_solve_settings defaults dist ps = UB NullDeref.
Proof. exact settings_null. Qed.
Print Assumptions C74_null.

(** Settings that are all different from the defaults. *)
Definition set_ps (t : dyadic) : py_settings :=
  mkPy (Some 3) (Some 2) (Some true) (Some false) (Some true) (Some 30) "vial" "dir" (Some false) (Some 7) None (Some 5) (Some 2)
    (Some false) (Some t).

Example C74_reaches_case : numbers_given (set_ps (mkDy 3 (-1))) /\ good_rules scip_rules /\
  py_solve_settings scip_rules [(1%nat, 4)] (set_ps (mkDy 3 (-1))) =
    Ok (mkSolver 3 "vial" "dir"
          [mkRule "relpscost" 3000 (-1); mkRule "pscost" 2000 (-1); mkRule "inference" 1000 (-1); mkRule "mostinf" 1000 (-1);
           mkRule "leastinf" 50 (-1); mkRule "fullstrong" 4000 3; mkRule "lookahead" 2500 7; mkRule "random" (-100000) (-1)]
          (mkDy 3 (-1)) 0 7 (mkOptions (mkFlags true false true false false) 5 2 false)) /\
  ~ numbers_given (mkPy None (Some 2) None None None (Some 30) "" "" None (Some 7) None (Some 5) (Some 2) None (Some (mkDy 1 0))).
Proof.
  split; [|split; [|split]].
  - unfold numbers_given, fits_int, set_ps. cbn [ps_max_depth ps_strategy ps_level ps_gap ps_tailing ps_sepafreq ps_time].
    assert (int_min <= -1000 /\ 1000 <= int_max) by (vm_compute; split; discriminate).
    repeat split; try discriminate; eexists; (split; [reflexivity|lia]).
  - split; [cbn; repeat constructor; cbn; intuition discriminate|]. split; eexists; cbn; eauto 8.
  - vm_compute. reflexivity.
  - intros ((z & H & _) & _). discriminate.
Qed.

(** ** The limit on the time *)

(** The limit is rounded to the nearest number with 24 binary digits, ties to even. *)
Theorem C74_rounding : forall t, nearest (num t) (num (to_float t)).
Proof. exact to_float_nearest. Qed.
Print Assumptions C74_rounding.

(** A limit with 24 digits, from 0 to 1e20 seconds, is exact; others below 1e19 seconds are wrong by at most 2^-24 of the limit; a
    negative one means no limit. *)
Theorem C74_time : forall defaults dist ps sv t, py_solve_settings defaults dist ps = Ok sv -> ps_time ps = Some t ->
  (float_number (num t) -> (0 <= num t <= inject_Z (10 ^ 20))%Q -> (num (sv_time sv) == num t)%Q) /\
  ((0 <= num t <= inject_Z (10 ^ 19))%Q -> (Qabs (num t - num (sv_time sv)) <= num t * (1 # 2 ^ 24))%Q) /\
  ((num t < 0)%Q -> (num (sv_time sv) == inject_Z (10 ^ 20))%Q).
Proof.
  intros defaults dist ps sv t E T. rewrite (settings_time _ _ _ _ _ E T).
  split; [apply time_exact|]. split; [apply time_error|apply time_negative].
Qed.
Print Assumptions C74_time.

(** Whole seconds up to half a year are exact. *)
Theorem C74_whole_seconds : forall defaults dist ps sv z, py_solve_settings defaults dist ps = Ok sv -> ps_time ps = Some (mkDy z 0) ->
  0 <= z <= 2 ^ 24 -> (num (sv_time sv) == inject_Z z)%Q.
Proof. exact whole_time. Qed.
Print Assumptions C74_whole_seconds.

(** One expects every limit to arrive as it is, and a negative limit to stop the solver or be refused. *)
Theorem C74_time_refuted :
  (exists t sv, py_solve_settings scip_rules [] (set_ps t) = Ok sv /\ (num t == inject_Z 16777217)%Q /\ (num (sv_time sv) == inject_Z 16777216)%Q) /\
  (exists t sv, py_solve_settings scip_rules [] (set_ps t) = Ok sv /\ (num t == - inject_Z 5)%Q /\ (num (sv_time sv) == inject_Z (10 ^ 20))%Q).
Proof.
  split.
  - exists (mkDy 16777217 0). eexists. split; [vm_compute; reflexivity|]. split; vm_compute; reflexivity.
  - exists (mkDy (-5) 0). eexists. split; [vm_compute; reflexivity|]. split; vm_compute; reflexivity.
Qed.
Print Assumptions C74_time_refuted.

Example C74_time_case :
  to_float (mkDy 14400 0) = mkDy 14400 0 /\ to_float (mkDy 16777217 0) = mkDy 8388608 1 /\ to_float (mkDy 16777219 0) = mkDy 8388610 1 /\
  to_float (mkDy (-33554435) 3) = mkDy (-8388609) 5 /\
  (* 0.1 *) to_float (mkDy 7205759403792794 (-56)) = mkDy 13421773 (-27).
Proof. vm_compute. auto. Qed.

(** ** Defaults *)

(** Without settings, Python and C++ agree on the name, the limit, the handlers, the presolving and the depth. *)
Theorem C74_defaults : forall defaults dist log, good_rules defaults -> exists sv sv',
  py_solve_settings defaults dist py_defaults = Ok sv /\ solve_settings log defaults cpp_defaults = Ok sv' /\
  sv_name sv = "pctsp" /\ sv_name sv' = "pctsp" /\ (num (sv_time sv) == inject_Z 14400)%Q /\ (num (sv_time sv') == inject_Z 14400)%Q /\
  sv_maxrounds sv = 0 /\ sv_maxrounds sv' = 0 /\ sv_log sv = 2 /\
  po_flags (sv_options sv) = mkFlags false false false true true /\ po_flags (sv_options sv') = mkFlags false false false true true /\
  po_tailing (sv_options sv) = -1 /\ po_tailing (sv_options sv') = -1 /\ po_sepafreq (sv_options sv) = 1 /\ po_sepafreq (sv_options sv') = 1 /\
  cs_max_depth cpp_defaults = -1 /\ ps_max_depth py_defaults = Some (-1) /\
  forall depth, exists r, r_name r = "relpscost" /\ first_choice (sv_rules sv) depth r.
Proof.
  intros defaults dist log G. destruct (strategy_ok 0 (-1) defaults G ltac:(lia)) as (l & E & _ & F & _).
  exists (mkSolver 2 "pctsp" "." l (mkDy 14400 0) 0 1 (mkOptions (mkFlags false false false true true) (-1) 1 false)).
  eexists. split; [|split; [vm_compute; reflexivity|]].
  - assert (N : numbers_given py_defaults).
    { unfold numbers_given, fits_int, py_defaults. cbn [ps_max_depth ps_strategy ps_level ps_gap ps_tailing ps_sepafreq ps_time].
      assert (int_min <= -1000 /\ 1000 <= int_max) by (vm_compute; split; discriminate).
      repeat split; try discriminate; eexists; (split; [reflexivity|lia]). }
    destruct (given_settings defaults dist _ N) as (limit & strategy & level & gap & tail & freq & t & E1 & E2 & _ & E3 & E4 & E5 & E6 & E7 & ->).
    injection E1 as <-. injection E2 as <-. injection E3 as <-. injection E4 as <-. injection E5 as <-. injection E6 as <-. injection E7 as <-.
    change (rules_offered defaults (py_bool (ps_simple py_defaults))) with defaults. rewrite E. cbn [bind].
    replace (set_time (mkDy no_limit 0) (to_float (mkDy 14400 0))) with (mkDy 14400 0) by (vm_compute; reflexivity).
    destruct dist; reflexivity.
  - cbn [sv_name sv_time sv_maxrounds sv_log sv_options po_flags po_tailing po_sepafreq sv_rules]. do 2 (split; [reflexivity|]).
    do 2 (split; [reflexivity|]). do 11 (split; [reflexivity|]). exact (F ltac:(lia)).
Qed.
Print Assumptions C74_defaults.

(** One expects them to agree on everything; they do not on the first branching rule, the threshold of the gap (1 and 10 thousandths),
    the plug-ins of SCIP, and the directory. *)
Theorem C74_defaults_refuted : exists sv sv',
  py_solve_settings scip_rules [] py_defaults = Ok sv /\ solve_settings 2 scip_rules cpp_defaults = Ok sv' /\
  (exists r, r_name r = "relpscost" /\ first_choice (sv_rules sv) 0 r) /\ (exists r, r_name r = "fullstrong" /\ first_choice (sv_rules sv') 0 r) /\
  sv_gap sv = 1 /\ sv_gap sv' = 10 /\ po_simple (sv_options sv) = false /\ po_simple (sv_options sv') = true /\
  sv_dir sv = "." /\ sv_dir sv' = "./pctsp".
Proof.
  eexists. eexists. split; [vm_compute; reflexivity|]. split; [vm_compute; reflexivity|].
  cbn [sv_rules sv_gap sv_options po_simple sv_dir].
  split; [|split; [|repeat split]].
  - exists (mkRule "relpscost" 100000 (-1)). split; [reflexivity|]. split; [now left|]. split; [now left|].
    intros r' H _ N. cbn in H. repeat (destruct H as [<-|H]; [cbn in *; try congruence; reflexivity|]). contradiction.
  - exists (mkRule "fullstrong" 4000 (-1)). split; [reflexivity|]. split; [now left|]. split; [now left|].
    intros r' H _ N. cbn in H. repeat (destruct H as [<-|H]; [cbn in *; try congruence; reflexivity|]). contradiction.
Qed.
Print Assumptions C74_defaults_refuted.

(** ** The experiments and the commands *)

(** Every vial of branch and cut of every experiment reaches SCIP: with its name and directory, SCIP's own plug-ins, both separators of
    subtours at every node, four hours (10 seconds in a dry run), and the branching of the experiment. *)
Theorem C74_vials : forall F uuid d e vs v defaults dist name dir level, experiment_vials F uuid d e = Ok vs -> In v vs ->
  is_exact (fp_model (fv_params v)) = true -> fits_int level -> good_rules defaults ->
  exists sv, py_solve_settings defaults dist (vial_settings (fp_model (fv_params v)) name dir level) = Ok sv /\
    arrived dist (vial_settings (fp_model (fv_params v)) name dir level) sv /\
    sv_name sv = name /\ sv_dir sv = dir /\ sv_gap sv = 1 /\ po_sepafreq (sv_options sv) = 1 /\ po_simple (sv_options sv) = false /\
    fl_cycle_cover (po_flags (sv_options sv)) = false /\ fl_sec_disjoint (po_flags (sv_options sv)) = true /\
    fl_sec_maxflow (po_flags (sv_options sv)) = true /\
    (num (sv_time sv) == (if match e with Dryrun => true | _ => false end then 10 else 14400))%Q /\
    (e = Dryrun \/ e = SimpleBranchCut -> forall depth, exists r, r_name r = "relpscost" /\ first_choice (sv_rules sv) depth r) /\
    (e = Baseline \/ e = CostCover \/ e = CcLondonaqAlpha -> forall depth, exists r,
       r_name r = (if depth <=? 1 then "fullstrong" else "relpscost") /\ first_choice (sv_rules sv) depth r).
Proof. exact vial_arrives. Qed.
Print Assumptions C74_vials.

(** The name simple_branch_cut suggests SCIP's simple rules: no vial uses them. *)
Theorem C74_never_simple : forall defaults dist mp name dir level sv,
  py_solve_settings defaults dist (vial_settings mp name dir level) = Ok sv -> po_simple (sv_options sv) = false.
Proof.
  intros defaults dist mp name dir level sv S.
  destruct (given_settings defaults dist _ (settings_given _ _ _ _ S)) as (l & s & lv & g & t & f & tm & _ & _ & _ & _ & _ & _ & _ & _ & S').
  rewrite S in S'. apply eq_sym, P_Base.bind_ok in S'. destruct S' as (rules & _ & S'). injection S' as <-. reflexivity.
Qed.
Print Assumptions C74_never_simple.

(** The commands tsplib and londonaq, for all their options of branch and cut. *)
Theorem C74_commands : forall bd cp cc1 cc2 h pdl ss gap tail tl defaults dist name dir level,
  fits_int bd -> fits_int tail -> fits_int level -> good_rules defaults ->
  let tsplib := vial_settings (fp_model (tsplib_params SolvePctsp bd cp cc1 cc2 h pdl ss gap tail tl)) name dir level in
  let londonaq := vial_settings (fp_model (londonaq_params SolvePctsp cc1 cc2 tl)) name dir level in
  (exists sv, py_solve_settings defaults dist tsplib = Ok sv /\ arrived dist tsplib sv /\ sv_gap sv = gap /\ po_tailing (sv_options sv) = tail /\
     forall depth, exists r, r_name r = (if (bd =? -1) || (depth <=? bd) then "fullstrong" else "relpscost") /\ first_choice (sv_rules sv) depth r) /\
  (exists sv, py_solve_settings defaults dist londonaq = Ok sv /\ arrived dist londonaq sv /\ sv_gap sv = 1 /\ po_tailing (sv_options sv) = -1 /\
     forall depth, exists r, r_name r = (if depth <=? 1 then "fullstrong" else "relpscost") /\ first_choice (sv_rules sv) depth r).
Proof.
  intros bd cp cc1 cc2 h pdl ss gap tail tl defaults dist name dir level B T L R tsplib londonaq.
  destruct (command_numbers bd cp cc1 cc2 h pdl ss gap tail tl name dir level B T L) as [N1 N2].
  split.
  - destruct (settings_arrive defaults dist tsplib N1 (or_intror R)) as (sv & S & A & Br). exists sv. split; [exact S|]. split; [exact A|].
    split; [assert (H := ar_gap _ _ _ A); change (Some gap = Some (sv_gap sv)) in H; congruence|]. split; [assert (H := ar_tailing _ _ _ A); change (Some tail = Some (po_tailing (sv_options sv))) in H; congruence|].
    intro depth. exact (br_first _ _ _ Br 2 bd depth eq_refl eq_refl ltac:(lia)).
  - destruct (settings_arrive defaults dist londonaq N2 (or_intror R)) as (sv & S & A & Br). exists sv. split; [exact S|]. split; [exact A|].
    split; [assert (H := ar_gap _ _ _ A); change (Some 1 = Some (sv_gap sv)) in H; congruence|]. split; [assert (H := ar_tailing _ _ _ A); change (Some (-1) = Some (po_tailing (sv_options sv))) in H; congruence|].
    intro depth. exact (br_first _ _ _ Br 2 1 depth eq_refl eq_refl ltac:(lia)).
Qed.
Print Assumptions C74_commands.

(** The switches are those in the model of run_algorithm, so that the theorems about it hold with these settings. *)
Theorem C74_same_flags : forall defaults dist L W he quota root mp a name dir level sv,
  solve_pctsp_args L W he quota root mp dist = Ok a ->
  py_solve_settings defaults dist (vial_settings mp name dir level) = Ok sv -> po_flags (sv_options sv) = sa_flags a.
Proof. exact same_flags. Qed.
Print Assumptions C74_same_flags.

(** The vials of the experiments never have a frequency that SCIP refuses: a new SCIP gets exactly the handlers asked for. *)
Theorem C74_handlers : forall F uuid d e vs v defaults dist name dir level sv tb handlers m heur root dist', experiment_vials F uuid d e = Ok vs ->
  In v vs -> is_exact (fp_model (fv_params v)) = true -> fits_int level -> good_rules defaults -> good_defaults handlers ->
  py_solve_settings defaults dist (vial_settings (fp_model (fv_params v)) name dir level) = Ok sv ->
  install tb handlers (sv_options sv) m heur root dist' fresh =
  do b <- solve_setup tb (po_flags (sv_options sv)) m heur root dist'; Ok (wanted handlers (sv_options sv) m b).
Proof.
  intros F uuid d e vs v defaults dist name dir level sv tb handlers m heur root dist' E I X L R G S.
  destruct (vial_arrives F uuid d e vs v defaults dist name dir level E I X L R) as (sv' & S' & _ & _ & _ & _ & P & _).
  assert (sv' = sv) by congruence. subst sv'. apply C72_fresh; [rewrite P; unfold frequency; lia|now right].
Qed.
Print Assumptions C74_handlers.

(** The exact vial of the dry run on the small graph of london. *)
Example C74_vials_case : exists vs v, experiment_vials (mkFiles (fun _ _ _ => 0) (fun _ _ => 0%nat) (fun _ _ => 0) (fun _ => 0%nat) (fun x => x) [])
    (fun i => i) Londonaq Dryrun = Ok vs /\ In v vs /\ is_exact (fp_model (fv_params v)) = true /\
  exists rules, py_solve_settings scip_rules [] (vial_settings (fp_model (fv_params v)) "u" "d" 20) =
    Ok (mkSolver 2 "u" "d" rules (mkDy 10 0) 0 1 (mkOptions (mkFlags false false false true true) (-1) 1 false)).
Proof.
  eexists. eexists. split; [vm_compute; reflexivity|]. split; [right; right; left; reflexivity|]. split; [reflexivity|].
  eexists. vm_compute. reflexivity.
Qed.
