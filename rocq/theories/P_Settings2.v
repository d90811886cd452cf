(** * P_Settings2: proofs about the settings of a run *)
From Coq Require Import String QArith Qpower Qabs Lqa.
From Verif Require Import Base P_Base M_PyWrap M_Branching M_Solve M_RunAlg M_Logger M_Plugins M_Settings Spec_PyWrap Spec_Branching
  Spec_Plugins Spec_Settings P_Branching P_Settings Properties_Branching.
Open Scope string_scope.
Open Scope list_scope.
Open Scope Z_scope.

(** ** The limit on the time *)

Lemma num_nonneg x : (0 <=? dy_m x) = true <-> (0 <= num x)%Q.
Proof.
  rewrite Z.leb_le. unfold num. rewrite <- (le_scaled 0 (dy_m x) _ (pow2_pos (dy_e x))).
  change (inject_Z 0) with 0%Q. rewrite Qmult_0_l. reflexivity.
Qed.

Lemma dy_le_spec x z : dy_le x z = true <-> (num x <= inject_Z z)%Q.
Proof.
  unfold dy_le, num. destruct (Z.leb_spec 0 (dy_e x)) as [L|L]; rewrite Z.leb_le.
  - rewrite <- (le_scaled _ z 1%Q) by reflexivity. rewrite Qmult_1_r.
    pose proof (num_shift (dy_m x) 0 (dy_e x) L) as E. rewrite Z.add_0_l in E. rewrite E. change ((2#1) ^ 0)%Q with 1%Q.
    rewrite Qmult_1_r. now rewrite Qmult_1_r.
  - rewrite <- (le_scaled _ _ _ (pow2_pos (dy_e x))). rewrite <- num_shift by lia.
    replace (dy_e x + - dy_e x) with 0 by lia. change ((2#1) ^ 0)%Q with 1%Q. now rewrite Qmult_1_r.
Qed.

Lemma time_set t : stops_after t (set_time (mkDy no_limit 0) (to_float t)).
Proof.
  exists (num (to_float t)). split; [apply to_float_nearest|]. unfold set_time.
  pose proof (num_nonneg (to_float t)) as N. pose proof (dy_le_spec (to_float t) no_limit) as L.
  change no_limit with (10 ^ 20) in *.
  destruct (0 <=? dy_m (to_float t)) eqn:E1, (dy_le (to_float t) (10 ^ 20)) eqn:E2; cbn [andb];
    (split; intro H; [try reflexivity; exfalso|try (exfalso; tauto)]).
  1,3,5: destruct H as [H1 H2]; apply N in H1; apply L in H2; congruence.
  all: unfold num; cbn [dy_m dy_e]; change ((2#1) ^ 0)%Q with 1%Q; now rewrite Qmult_1_r.
Qed.

(** ** The branching rules *)

Lemma same_names l l' : same_rules l l' -> map r_name l' = map r_name l.
Proof. induction 1 as [|r r' l l' [H _] _ IH]; cbn; congruence. Qed.

Lemma same_in l l' r : same_rules l l' -> In r l -> exists r', In r' l' /\ r_name r' = r_name r /\ r_maxdepth r' = r_maxdepth r.
Proof.
  induction 1 as [|a b l l' [H1 H2] _ IH]; intros I; [contradiction|]. destruct I as [->|I].
  - exists b. cbn. auto.
  - destruct (IH I) as (r' & A & B). exists r'. cbn. auto.
Qed.

Lemma strategy_ok strategy limit l : good_rules l -> 0 <= strategy -> exists l',
  set_branching_strategy strategy limit l = Ok l' /\ map r_name l' = map r_name l /\
  (strategy <= 2 -> forall depth, exists r, r_name r = rule_meant strategy limit depth /\ first_choice l' depth r) /\
  (3 <= strategy -> l' = l).
Proof.
  intros (ND & [p1 I1] & [p2 I2]) H0.
  assert (C : strategy = 0 \/ strategy = 1 \/ strategy = 2 \/ 3 <= strategy) by lia. destruct C as [->|[->|[->|C]]].
  - destruct (C24_relpscost_first limit l) as (l' & E & S & F). exists l'. split; [exact E|]. split; [now apply same_names|].
    split; [|lia]. intros _ depth. apply (F _ depth I2); [reflexivity|now left].
  - destruct (C24_strong_order limit l) as (l' & E & S & F & _). exists l'. split; [exact E|]. split; [now apply same_names|].
    split; [|lia]. intros _ depth. destruct (same_in _ _ _ S I1) as (r & A & B & D). exists r. split; [exact B|].
    split; [exact A|]. split; [left; exact D|]. intros r' A' _ N. apply (F r r' A A' B). intro E'. apply N. now rewrite E', B.
  - destruct (C24_tree_top limit l ND) as (l' & E & S & F1 & F2); [apply (in_map r_name) in I1; exact I1|].
    exists l'. split; [exact E|]. split.
    { clear - S. induction S as [|r r' l l' [H _] _ IH]; cbn; congruence. }
    split; [|lia]. intros _ depth. unfold rule_meant. cbn [Z.eqb].
    destruct ((limit =? -1) || (depth <=? limit))%bool eqn:B.
    + apply F1. lia.
    + apply (F2 depth _) with (3 := I2); [lia|lia|reflexivity|now left].
  - exists l. split; [|split; [reflexivity|split; [lia|reflexivity]]]. apply C24_other_strategies_unchanged; unfold S_RELPSCOST, S_STRONG, S_STRONG_AT_TREE_TOP; lia.
Qed.

Lemma simple_good : good_rules (rules_offered [] true).
Proof.
  split; [repeat constructor; cbn; intuition discriminate|]. split; eexists; cbn; eauto.
Qed.

(** ** The arguments *)

Lemma arg_int o : (exists z, o = Some z /\ fits_int z /\ py_arg_int o = Ok z) \/
  (py_arg_int o = Throw TypeErrorPy /\ ~ exists z, o = Some z /\ fits_int z).
Proof.
  destruct o as [z|]; [|right; split; [reflexivity|intros (? & H & _); discriminate]].
  cbn. unfold py_int. destruct ((int_min <=? z) && (z <=? int_max))%bool eqn:E.
  - left. exists z. unfold fits_int. repeat split; lia.
  - right. split; [reflexivity|]. intros (y & H & F). injection H as <-. unfold fits_int in F. lia.
Qed.

Lemma arg_unsigned o : (exists z, o = Some z /\ 0 <= z <= 2 * int_max + 1 /\ py_arg_unsigned o = Ok z) \/
  (py_arg_unsigned o = Throw TypeErrorPy /\ ~ exists z, o = Some z /\ 0 <= z <= 2 * int_max + 1).
Proof.
  destruct o as [z|]; [|right; split; [reflexivity|intros (? & H & _); discriminate]].
  unfold py_arg_unsigned. destruct ((0 <=? z) && (z <=? 2 * int_max + 1))%bool eqn:E.
  - left. exists z. repeat split; lia.
  - right. split; [reflexivity|]. intros (y & H & F). injection H as <-. lia.
Qed.

Lemma bool_true o : py_bool o = true <-> o = Some true.
Proof. destruct o as [[]|]; cbn; split; congruence. Qed.

(** What the binding does once all numbers are there. *)
Lemma given_settings defaults dist ps : numbers_given ps ->
  exists limit strategy level gap tail freq t,
    ps_max_depth ps = Some limit /\ ps_strategy ps = Some strategy /\ 0 <= strategy /\ ps_level ps = Some level /\
    ps_gap ps = Some gap /\ ps_tailing ps = Some tail /\ ps_sepafreq ps = Some freq /\ ps_time ps = Some t /\
    py_solve_settings defaults dist ps =
    do rules <- set_branching_strategy strategy limit (rules_offered defaults (py_bool (ps_simple ps)));
    Ok (mkSolver (boost_level_from_py level) (ps_name ps) (ps_dir ps) rules (set_time (mkDy no_limit 0) (to_float t)) 0 gap
          (mkOptions (mkFlags (match dist with [] => false | _ => py_bool (ps_cc_disjoint ps) end) (py_bool (ps_cc_shortest ps))
             (py_bool (ps_cycle_cover ps)) (py_bool (ps_sec_disjoint ps)) (py_bool (ps_maxflow ps))) tail freq (py_bool (ps_simple ps)))).
Proof.
  intros ((limit & E1 & F1) & (strategy & E2 & F2) & (level & E3 & F3) & G & (tail & E4 & F4) & (freq & E5 & F5) & T).
  destruct (ps_gap ps) as [gap|] eqn:E6; [|congruence]. destruct (ps_time ps) as [t|] eqn:E7; [|congruence].
  exists limit, strategy, level, gap, tail, freq, t. do 2 (split; [assumption|]). split; [lia|]. split; [assumption|].
  split; [reflexivity|]. split; [assumption|]. split; [assumption|]. split; [reflexivity|].
  unfold py_solve_settings, bind_settings. rewrite E1, E2, E3, E4, E5, E6, E7.
  assert (I : forall z, fits_int z -> py_arg_int (Some z) = Ok z).
  { intros z F. destruct (arg_int (Some z)) as [(y & E & _ & ->)|[_ N]]; [congruence|]. destruct N. eauto. }
  rewrite (I limit), (I level), (I tail), (I freq) by assumption. cbn [bind].
  destruct (arg_unsigned (Some strategy)) as [(y & E & _ & ->)|[_ N]]; [|destruct N; eauto]. injection E as <-. cbn [bind py_arg_float].
  unfold solve_settings, model_settings, subtour_settings. cbn [cs_simple cs_strategy cs_max_depth cs_name cs_dir cs_time cs_cc_disjoint
    cs_cc_shortest cs_cycle_cover cs_sec_disjoint cs_gap cs_maxflow cs_tailing cs_sepafreq].
  replace (if py_bool (ps_simple ps) then simple_rules else defaults) with (rules_offered defaults (py_bool (ps_simple ps))) by
    (unfold rules_offered, simple_rules; destruct (py_bool (ps_simple ps)); reflexivity).
  destruct dist; reflexivity.
Qed.

Lemma settings_arrive defaults dist ps : numbers_given ps -> (ps_simple ps = Some true \/ good_rules defaults) ->
  exists sv, py_solve_settings defaults dist ps = Ok sv /\ arrived dist ps sv /\ branching_arrived defaults ps sv.
Proof.
  intros G R. destruct (given_settings defaults dist ps G) as (limit & strategy & level & gap & tail & freq & t & E1 & E2 & P & E3 & E4 & E5 & E6 & E7 & ->).
  assert (GR : good_rules (rules_offered defaults (py_bool (ps_simple ps)))).
  { destruct (py_bool (ps_simple ps)) eqn:B; [apply simple_good|]. destruct R as [R|R]; [|exact R]. apply bool_true in R. congruence. }
  destruct (strategy_ok strategy limit _ GR P) as (rules & -> & S1 & S2 & S3). cbn [bind]. eexists. split; [reflexivity|]. split.
  - set (tt := set_time _ _). constructor; cbn [sv_name sv_dir sv_log sv_gap sv_options sv_rules sv_time sv_maxrounds po_flags po_tailing po_sepafreq po_simple fl_disjoint_paths
      fl_shortest_path fl_cycle_cover fl_sec_disjoint fl_sec_maxflow]; try reflexivity; try assumption; try apply bool_true.
    + eauto.
    + rewrite <- bool_true. destruct dist; split; [discriminate|intros [_ N]; congruence|now split|tauto].
    + exists t. split; [exact E7|apply time_set].
  - set (tt := set_time _ _). constructor; cbn [sv_name sv_dir sv_log sv_gap sv_options sv_rules sv_time sv_maxrounds po_flags po_tailing po_sepafreq po_simple fl_disjoint_paths
      fl_shortest_path fl_cycle_cover fl_sec_disjoint fl_sec_maxflow].
    + exact S1.
    + intros s l d H1 H2 H3. assert (s = strategy) by congruence. assert (l = limit) by congruence. subst. now apply S2.
    + intros s H1 H3. assert (s = strategy) by congruence. subst. now apply S3.
Qed.

Lemma numbers_cases defaults dist ps : numbers_given ps \/ py_solve_settings defaults dist ps = Throw TypeErrorPy.
Proof.
  unfold py_solve_settings, bind_settings.
  destruct (arg_int (ps_max_depth ps)) as [(z1 & E1 & F1 & ->)|[-> _]]; [|now right]. cbn [bind].
  destruct (arg_unsigned (ps_strategy ps)) as [(z2 & E2 & F2 & ->)|[-> _]]; [|now right]. cbn [bind].
  destruct (arg_int (ps_level ps)) as [(z3 & E3 & F3 & ->)|[-> _]]; [|now right]. cbn [bind].
  destruct (ps_gap ps) as [g|] eqn:E4; [|now right]. cbn [bind py_arg_float].
  destruct (arg_int (ps_tailing ps)) as [(z5 & E5 & F5 & ->)|[-> _]]; [|now right]. cbn [bind].
  destruct (arg_int (ps_sepafreq ps)) as [(z6 & E6 & F6 & ->)|[-> _]]; [|now right]. cbn [bind].
  destruct (ps_time ps) as [t|] eqn:E7; [|now right]. left.
  unfold numbers_given. rewrite E4, E7. repeat (split; [eauto||discriminate|]). discriminate.
Qed.

Lemma settings_missing defaults dist ps : ~ numbers_given ps -> py_solve_settings defaults dist ps = Throw TypeErrorPy.
Proof. intro N. destruct (numbers_cases defaults dist ps); [contradiction|assumption]. Qed.

Lemma settings_given defaults dist ps sv : py_solve_settings defaults dist ps = Ok sv -> numbers_given ps.
Proof. intro E. destruct (numbers_cases defaults dist ps); [assumption|congruence]. Qed.

(** Without full strong branching, strategy 2 follows a null pointer. *)
Lemma settings_null defaults dist ps : numbers_given ps -> ps_simple ps <> Some true -> ps_strategy ps = Some 2 ->
  ~ In "fullstrong" (map r_name defaults) -> py_solve_settings defaults dist ps = UB NullDeref.
Proof.
  intros G S E N. destruct (given_settings defaults dist ps G) as (limit & strategy & level & gap & tail & freq & t & _ & E2 & _ & _ & _ & _ & _ & _ & ->).
  assert (strategy = 2) by congruence. subst strategy. destruct (py_bool (ps_simple ps)) eqn:B; [apply bool_true in B; contradiction|].
  cbn [rules_offered]. unfold set_branching_strategy. change (2 =? S_RELPSCOST) with false. change (2 =? S_STRONG) with false.
  change (2 =? S_STRONG_AT_TREE_TOP) with true. cbv iota. unfold set_strong_at_tree_top. rewrite set_strong_eq. cbn [bind].
  assert (F : forall l, ~ In FULL_STRONG (map r_name l) -> find_rule l FULL_STRONG = None).
  { clear. induction l as [|r l IH]; intro H; [reflexivity|]. cbn [find_rule]. cbn in H.
    destruct (String.eqb_spec (r_name r) FULL_STRONG); [tauto|]. rewrite IH by tauto. reflexivity. }
  rewrite F; [reflexivity|]. rewrite map_map. cbn. exact N.
Qed.

(** ** The limit on the time that SCIP gets *)

Lemma settings_time defaults dist ps sv t : py_solve_settings defaults dist ps = Ok sv -> ps_time ps = Some t ->
  sv_time sv = set_time (mkDy no_limit 0) (to_float t).
Proof.
  intros E Et. destruct (given_settings defaults dist ps (settings_given _ _ _ _ E)) as (limit & strategy & level & gap & tail & freq & t' & _ & _ & _ & _ & _ & _ & _ & E7 & E').
  rewrite E in E'. apply eq_sym, bind_ok in E'. destruct E' as (rules & _ & E'). injection E' as <-. cbn [sv_time]. congruence.
Qed.

Lemma limit_num : (num (mkDy no_limit 0) == inject_Z (10 ^ 20))%Q.
Proof. unfold num. cbn [dy_m dy_e]. change ((2#1) ^ 0)%Q with 1%Q. rewrite Qmult_1_r. reflexivity. Qed.

Lemma time_in_range x : (0 <= num (to_float x) <= inject_Z (10 ^ 20))%Q -> set_time (mkDy no_limit 0) (to_float x) = to_float x.
Proof.
  intros [H1 H2]. unfold set_time. apply num_nonneg in H1. apply dy_le_spec in H2. rewrite H1. unfold no_limit. rewrite H2. reflexivity.
Qed.

Lemma time_exact x : float_number (num x) -> (0 <= num x <= inject_Z (10 ^ 20))%Q ->
  (num (set_time (mkDy no_limit 0) (to_float x)) == num x)%Q.
Proof.
  intros F H. pose proof (to_float_exact x F) as E. rewrite time_in_range; [exact E|]. rewrite E. exact H.
Qed.

Lemma to_float_sign x : (num (to_float x) < 0)%Q <-> (num x < 0)%Q.
Proof.
  pose proof (to_float_error x) as E.
  assert (A : (Qabs (num x) * (1 # 2 ^ 24) <= Qabs (num x) * (1 # 2))%Q).
  { pose proof (Qabs_nonneg (num x)). change (1 # 2 ^ 24)%Q with (1 # 16777216)%Q. lra. }
  destruct (Qlt_le_dec (num x) 0) as [L|L].
  - split; [intros _; exact L|intros _]. rewrite (Qabs_neg (num x)) in * by lra.
    destruct (Qlt_le_dec (num (to_float x)) 0) as [K|K]; [exact K|exfalso]. rewrite Qabs_neg in E by lra. lra.
  - split; intro H; [exfalso|lra]. rewrite (Qabs_pos (num x)) in * by lra. rewrite Qabs_pos in E by lra. lra.
Qed.

Lemma time_negative x : (num x < 0)%Q -> (num (set_time (mkDy no_limit 0) (to_float x)) == inject_Z (10 ^ 20))%Q.
Proof.
  intro H. apply to_float_sign in H. unfold set_time. destruct (0 <=? dy_m (to_float x)) eqn:E.
  - apply num_nonneg in E. lra.
  - cbn [andb]. apply limit_num.
Qed.

Lemma time_error x : (0 <= num x <= inject_Z (10 ^ 19))%Q ->
  (Qabs (num x - num (set_time (mkDy no_limit 0) (to_float x))) <= num x * (1 # 2 ^ 24))%Q.
Proof.
  intros [H1 H2]. pose proof (to_float_error x) as E. rewrite (Qabs_pos (num x)) in E by exact H1. rewrite time_in_range; [exact E|].
  split.
  - destruct (Qlt_le_dec (num (to_float x)) 0) as [L|L]; [|exact L]. apply (proj1 (to_float_sign x)) in L. exfalso. exact (Qlt_not_le _ _ L H1).
  - assert (A : (num x * (1 # 2 ^ 24) <= num x)%Q) by (clear - H1; change (1 # 2 ^ 24)%Q with (1 # 16777216)%Q; lra).
    assert (B : (num (to_float x) <= num x + num x)%Q).
    { clear H2. assert (X := Qabs_Qle_condition (num x - num (to_float x)) (num x * (1 # 2 ^ 24))). apply X in E. lra. }
    assert (C : (inject_Z (10 ^ 19) + inject_Z (10 ^ 19) <= inject_Z (10 ^ 20))%Q) by (rewrite <- inject_Z_plus, <- Zle_Qle; vm_compute; discriminate).
    set (a := inject_Z (10 ^ 19)) in *. set (b := inject_Z (10 ^ 20)) in *. clearbody a b. lra.
Qed.

(** Small whole numbers have 24 digits. *)
Lemma whole_float z : Z.abs z <= 2 ^ 24 -> float_number (num (mkDy z 0)).
Proof. intro H. exists z, 0. split; [exact H|reflexivity]. Qed.
