(** * P_Settings3: the settings of the experiments and commands, and the handlers made from them *)
From Coq Require Import String QArith Qabs.
From Verif Require Import Base P_Base M_PyWrap M_Branching M_Solve M_RunAlg M_Logger M_Compare M_Plugins M_Settings Spec_PyWrap
  Spec_Branching Spec_RunAlg Spec_Compare Spec_Plugins Spec_Settings P_CompareSet P_Settings P_Settings2.
Open Scope string_scope.
Open Scope list_scope.
Open Scope Z_scope.

Lemma small_int z : -1000 <= z <= 1000 -> fits_int z.
Proof. intro H. unfold fits_int. assert (int_min <= -1000 /\ 1000 <= int_max) by (vm_compute; split; discriminate). lia. Qed.

(** The parameters of an exact vial. *)
Lemma exact_params F uuid d e vs v : experiment_vials F uuid d e = Ok vs -> In v vs -> is_exact (fp_model (fv_params v)) = true ->
  (e = Dryrun /\ fv_params v = plain_exact_setting 10) \/ (e = SimpleBranchCut /\ fv_params v = plain_exact_setting 14400) \/
  ((e = Baseline \/ e = CostCover \/ e = CcLondonaqAlpha) /\ exists c1 c2 c3 start step, fv_params v = exact_setting 2 5 c1 c2 c3 start step) \/
  (e = TailingOff /\ exists strategy tail c1 c2 c3 start step, (strategy = 2 \/ strategy = 4) /\ (tail = -1 \/ tail = 5 \/ tail = 10) /\
     fv_params v = exact_setting strategy tail c1 c2 c3 start step).
Proof.
  intros E I X. destruct (experiment_settings _ _ _ _ _ E) as (data & M & _).
  assert (J : In (fv_params v) (settings e)).
  { apply (in_map (fun v => (fv_data v, fv_params v))) in I. rewrite M in I. apply in_flat_map in I. destruct I as (x & _ & I).
    apply in_map_iff in I. destruct I as (p & P & I). congruence. }
  clear - J X. destruct e; cbn in J; repeat (destruct J as [J|J]; [rewrite <- J in *; cbn in X; try discriminate X|]); try contradiction; eauto 12.
  all: do 3 right; split; [reflexivity|]; do 7 eexists; split; [|split; [|reflexivity]]; auto.
Qed.

Lemma exact_numbers strategy tail c1 c2 c3 start step name dir level : 0 <= strategy <= 4 -> -1 <= tail <= 10 -> fits_int level ->
  numbers_given (vial_settings (fp_model (exact_setting strategy tail c1 c2 c3 start step)) name dir level).
Proof.
  intros S T L. unfold numbers_given, exact_setting, vial_settings. cbn [fp_model ps_max_depth ps_strategy ps_level ps_gap ps_tailing ps_sepafreq ps_time
    mp_branching_max_depth mp_branching_strategy mp_lp_gap mp_tailing_off mp_sepafreq mp_time_limit option_map].
  split; [eexists; split; [reflexivity|apply small_int; lia]|].
  split; [eexists; split; [reflexivity|assert (1000 <= int_max) by (vm_compute; discriminate); lia]|].
  split; [eauto|]. split; [discriminate|]. split; [eexists; split; [reflexivity|apply small_int; lia]|].
  split; [eexists; split; [reflexivity|apply small_int; lia]|discriminate].
Qed.

Lemma plain_numbers time name dir level : fits_int level ->
  numbers_given (vial_settings (fp_model (plain_exact_setting time)) name dir level).
Proof.
  intros L. unfold numbers_given, plain_exact_setting, vial_settings. cbn [fp_model ps_max_depth ps_strategy ps_level ps_gap ps_tailing ps_sepafreq ps_time
    mp_branching_max_depth mp_branching_strategy mp_lp_gap mp_tailing_off mp_sepafreq mp_time_limit option_map].
  split; [eexists; split; [reflexivity|apply small_int; lia]|].
  split; [eexists; split; [reflexivity|assert (1000 <= int_max) by (vm_compute; discriminate); lia]|].
  split; [eauto|]. split; [discriminate|]. split; [eexists; split; [reflexivity|apply small_int; lia]|].
  split; [eexists; split; [reflexivity|apply small_int; lia]|discriminate].
Qed.

Lemma vial_numbers F uuid d e vs v name dir level : experiment_vials F uuid d e = Ok vs -> In v vs ->
  is_exact (fp_model (fv_params v)) = true -> fits_int level -> numbers_given (vial_settings (fp_model (fv_params v)) name dir level).
Proof.
  intros E I X L. destruct (exact_params _ _ _ _ _ _ E I X) as [[_ ->]|[[_ ->]|[[_ (c1 & c2 & c3 & st & sp & ->)]|[_ (s & t & c1 & c2 & c3 & st & sp & S & T & ->)]]]].
  - now apply plain_numbers.
  - now apply plain_numbers.
  - apply exact_numbers; [lia|lia|exact L].
  - apply exact_numbers; [lia|lia|exact L].
Qed.

(** A limit in whole seconds. *)
Lemma whole_time defaults dist ps sv z : py_solve_settings defaults dist ps = Ok sv -> ps_time ps = Some (mkDy z 0) -> 0 <= z <= 2 ^ 24 ->
  (num (sv_time sv) == inject_Z z)%Q.
Proof.
  intros E T H. rewrite (settings_time _ _ _ _ _ E T). assert (N : (num (mkDy z 0) == inject_Z z)%Q).
  { unfold num. cbn [dy_m dy_e]. change ((2#1) ^ 0)%Q with 1%Q. apply Qmult_1_r. }
  rewrite time_exact; [exact N| |].
  - apply whole_float. lia.
  - rewrite N. split; [change 0%Q with (inject_Z 0)|]; rewrite <- Zle_Qle; [lia|]. assert (2 ^ 24 <= 10 ^ 20) by (vm_compute; discriminate). lia.
Qed.

(** What an exact vial tells SCIP. *)
Lemma vial_arrives F uuid d e vs v defaults dist name dir level : experiment_vials F uuid d e = Ok vs -> In v vs ->
  is_exact (fp_model (fv_params v)) = true -> fits_int level -> good_rules defaults ->
  exists sv, py_solve_settings defaults dist (vial_settings (fp_model (fv_params v)) name dir level) = Ok sv /\
    arrived dist (vial_settings (fp_model (fv_params v)) name dir level) sv /\
    sv_name sv = name /\ sv_dir sv = dir /\ sv_gap sv = 1 /\ po_sepafreq (sv_options sv) = 1 /\ po_simple (sv_options sv) = false /\
    fl_cycle_cover (po_flags (sv_options sv)) = false /\ fl_sec_disjoint (po_flags (sv_options sv)) = true /\
    fl_sec_maxflow (po_flags (sv_options sv)) = true /\
    (num (sv_time sv) == (if match e with Dryrun => true | _ => false end then 10 else 14400))%Q /\
    (e = Dryrun \/ e = SimpleBranchCut -> forall depth, exists r, r_name r = "relpscost" /\ first_choice (sv_rules sv) depth r) /\
    (e = Baseline \/ e = CostCover \/ e = CcLondonaqAlpha -> forall depth, exists r,
       r_name r = (if depth <=? 1 then "fullstrong" else "relpscost") /\ first_choice (sv_rules sv) depth r).
Proof.
  intros E I X L R. pose proof (vial_numbers _ _ _ _ _ _ name dir level E I X L) as N.
  set (ps := vial_settings (fp_model (fv_params v)) name dir level) in *.
  destruct (settings_arrive defaults dist ps N (or_intror R)) as (sv & S & A & B). exists sv. split; [exact S|]. split; [exact A|].
  split; [exact (ar_name _ _ _ A)|]. split; [exact (ar_dir _ _ _ A)|].
  assert (P : ps_gap ps = Some 1 /\ ps_sepafreq ps = Some 1 /\ ps_simple ps = Some false /\ ps_cycle_cover ps = Some false /\
              ps_sec_disjoint ps = Some true /\ ps_maxflow ps = Some true /\
              ps_time ps = Some (mkDy (if match e with Dryrun => true | _ => false end then 10 else 14400) 0) /\
              (e = Dryrun \/ e = SimpleBranchCut -> ps_strategy ps = Some 0 /\ ps_max_depth ps = Some (-1)) /\
              (e = Baseline \/ e = CostCover \/ e = CcLondonaqAlpha -> ps_strategy ps = Some 2 /\ ps_max_depth ps = Some 1)).
  { unfold ps. destruct (exact_params _ _ _ _ _ _ E I X) as [[-> ->]|[[-> ->]|[[H (c1 & c2 & c3 & st & sp & ->)]|[-> (s & t & c1 & c2 & c3 & st & sp & _ & _ & ->)]]]].
    - do 7 (split; [reflexivity|]). split; [intros _; split; reflexivity|intros [H|[H|H]]; discriminate].
    - do 7 (split; [reflexivity|]). split; [intros _; split; reflexivity|intros [H|[H|H]]; discriminate].
    - destruct H as [-> | [-> | ->]]; do 7 (split; [reflexivity|]); (split; [intros [H|H]; discriminate|intros _; split; reflexivity]).
    - do 7 (split; [reflexivity|]). split; [intros [H|H]; discriminate|intros [H|[H|H]]; discriminate]. }
  destruct P as (P1 & P2 & P3 & P4 & P5 & P6 & P7 & P8 & P9).
  destruct A as [_ _ _ A1 _ A2 A3 _ _ A4 A5 A6 _ _].
  split; [congruence|]. split; [congruence|]. split; [destruct (po_simple (sv_options sv)); [exfalso; apply proj1 in A3; specialize (A3 eq_refl); congruence|reflexivity]|].
  split; [destruct (fl_cycle_cover (po_flags (sv_options sv))); [exfalso; apply proj1 in A4; specialize (A4 eq_refl); congruence|reflexivity]|].
  split; [now apply A5|]. split; [now apply A6|].
  split. { rewrite (whole_time _ _ _ _ _ S P7) by (destruct e; vm_compute; split; discriminate). destruct e; reflexivity. }
  split; intros H depth.
  - destruct (P8 H) as [H1 H2]. destruct (br_first _ _ _ B 0 (-1) depth H1 H2 ltac:(lia)) as (r & Hr & C). exists r. split; [exact Hr|exact C].
  - destruct (P9 H) as [H1 H2]. destruct (br_first _ _ _ B 2 1 depth H1 H2 ltac:(lia)) as (r & Hr & C). exists r. split; [exact Hr|exact C].
Qed.

(** What the commands tell SCIP. *)
Lemma command_numbers bd cp cc1 cc2 h pdl ss gap tail tl name dir level : fits_int bd -> fits_int tail -> fits_int level ->
  numbers_given (vial_settings (fp_model (tsplib_params SolvePctsp bd cp cc1 cc2 h pdl ss gap tail tl)) name dir level) /\
  numbers_given (vial_settings (fp_model (londonaq_params SolvePctsp cc1 cc2 tl)) name dir level).
Proof.
  intros B T L.
  assert (G : forall d t g, fits_int d -> fits_int t -> numbers_given (mkPy (Some d) (Some 2) (Some cc1) (Some cc2) (Some false) (Some level) name dir (Some true) (Some g)
    (Some true) (Some t) (Some 1) (Some false) (Some (mkDy tl 0)))).
  { intros d t g D T'. unfold numbers_given. cbn [ps_max_depth ps_strategy ps_level ps_gap ps_tailing ps_sepafreq ps_time].
    split; [eauto|]. split; [exists 2; split; [reflexivity|assert (1000 <= int_max) by (vm_compute; discriminate); lia]|].
    split; [eauto|]. split; [discriminate|]. split; [eauto|]. split; [|discriminate]. exists 1. split; [reflexivity|apply small_int; lia]. }
  split; [apply (G bd tail gap B T)|apply (G 1 (-1) 1); apply small_int; lia].
Qed.

(** The switches are those with which M_RunAlg calls the solver. *)
Lemma same_flags defaults dist L W he quota root mp a name dir level sv :
  solve_pctsp_args L W he quota root mp dist = Ok a ->
  py_solve_settings defaults dist (vial_settings mp name dir level) = Ok sv -> po_flags (sv_options sv) = sa_flags a.
Proof.
  intros A S. destruct (given_settings defaults dist _ (settings_given _ _ _ _ S)) as (l & s & lv & g & t & f & tm & _ & _ & _ & _ & _ & _ & _ & _ & S').
  rewrite S in S'. apply eq_sym, bind_ok in S'. destruct S' as (rules & _ & S'). injection S' as <-. cbn [sv_options po_flags].
  unfold solve_pctsp_args in A. apply bind_ok in A. destruct A as ([cd pd] & _ & A). cbn beta iota in A.
  repeat (apply bind_ok in A; destruct A as (? & _ & A)). injection A as <-. cbn [sa_flags]. unfold vial_settings.
  cbn [ps_cc_disjoint ps_cc_shortest ps_cycle_cover ps_sec_disjoint ps_maxflow]. reflexivity.
Qed.
