(** * P_Solve: branch and cut *)
From Coq Require Import Permutation.
From Verif Require Import Base Graph Spec Spec_Cycle M_Walk M_Graph M_Dijkstra M_Solution M_ILP M_Subtour
  M_CycleCover M_CostCover M_Renaming M_MaxFlow M_Solve Spec_ILP Spec_Cover Spec_Flow Spec_Solve.
From Verif Require Import P_Base P_Walk P_Extension P_Dijkstra P_Collapse P_Cycle P_ILP P_Model P_Cuts P_Separate P_Cover
  P_CostCover P_MaxFlow P_CheckFlow.
Open Scope nat_scope.

(** ** costs of edge lists *)
Lemma total_cost_zsum g c C es : costs_within g c 0 C -> (0 <= C)%Z ->
  Forall (fun e => e < length (ge g)) es -> (Z.of_nat (length es) * C <= int_max)%Z ->
  total_cost_edges c es = Ok (zsum (fun e => nth e c 0%Z) es) /\
  (0 <= zsum (fun e => nth e c 0%Z) es <= Z.of_nat (length es) * C)%Z.
Proof.
  intros [Hl Hf] HC He Hmax.
  assert (Hx : forall e, e < length c -> (0 <= nth e c 0 <= C)%Z).
  { intros e Hlt. rewrite Forall_forall in Hf. apply Hf, nth_In. auto. }
  assert (G : forall es, Forall (fun e => e < length (ge g)) es ->
    (0 <= zsum (fun e => nth e c 0%Z) es <= Z.of_nat (length es) * C)%Z).
  { clear es He Hmax. induction 1 as [|e es He _ IH]; cbn [zsum length]; [lia|].
    specialize (Hx e ltac:(congruence)). rewrite Nat2Z.inj_succ. lia. }
  split; auto. unfold total_cost_edges.
  assert (H : forall es acc, Forall (fun e => e < length (ge g)) es -> (0 <= acc)%Z ->
    (acc + Z.of_nat (length es) * C <= int_max)%Z ->
    foldM (fun acc e => do x <- cost_of c e; chk (acc + x)%Z) es acc =
    Ok (acc + zsum (fun e => nth e c 0%Z) es)%Z).
  { clear es He Hmax. induction es as [|e es IH]; intros acc He Ha Hm; cbn [foldM zsum].
    - f_equal. lia.
    - apply Forall_cons_iff in He as [He1 He]. cbn [length] in Hm. rewrite Nat2Z.inj_succ in Hm.
      destruct (vget_ok c e ltac:(congruence)) as (x & E & En).
      assert (Ec : cost_of c e = Ok x) by exact E. rewrite Ec. cbn [bind].
      pose proof (Hx e ltac:(congruence)) as Hb. rewrite (nth_error_nth _ _ 0%Z En) in Hb |- *.
      assert (0 <= Z.of_nat (length es) * C)%Z by (apply Z.mul_nonneg_nonneg; lia).
      rewrite chk_ok by (unfold int_min, int_max in *; lia). cbn [bind].
      rewrite IH by (auto; lia). f_equal. lia. }
  rewrite H by (auto; lia). f_equal.
Qed.

Lemma any_cost_trail g c w z : any_cost g c w z ->
  exists es, trail g w es /\ z = zsum (fun e => nth e c 0%Z) es.
Proof.
  induction 1 as [u|u v w e x z Hj Hx _ (es & Ht & ->)].
  - exists []. split; [constructor|reflexivity].
  - exists (e :: es). split; [constructor; auto|]. cbn [zsum]. now rewrite (nth_error_nth _ _ 0%Z Hx).
Qed.

Lemma trail_any_cost g c w es : length c = length (ge g) -> trail g w es ->
  any_cost g c w (zsum (fun e => nth e c 0%Z) es).
Proof.
  intros Hc. induction 1 as [u|u v w e es Hj _ IH]; cbn [zsum]; [constructor|].
  apply ac_cons with e; auto. apply nth_error_nth'. rewrite Hc. eapply joins_lt; eauto.
Qed.

Lemma trail_lt g w es : trail g w es -> Forall (fun e => e < length (ge g)) es.
Proof. induction 1; constructor; auto. eapply joins_lt; eauto. Qed.

Lemma tour_len g r t : tour_from g r t -> length t <= S (gn g).
Proof.
  intros (vs & -> & Hn & _ & _ & Hf). cbn [length]. rewrite app_length. cbn [length].
  assert (length (r :: vs) <= gn g).
  { apply NoDup_length_le; auto. apply Forall_cons_iff in Hf as [H1 H2]. constructor; auto.
    apply Forall_app in H2. apply H2. }
  cbn [length] in H. lia.
Qed.

(** ** the graph with loops *)
Lemma unloop_cost g c r t z : tour_from g r t -> length c = length (ge g) ->
  any_cost (with_loops g) (c ++ repeat 0%Z (gn g)) t z -> any_cost g c t z.
Proof.
  intros Ht Hc Hz. destruct (any_cost_trail _ _ _ _ Hz) as (es & Htr & ->).
  assert (Htr' : trail g t es).
  { apply with_loops_trail; auto. apply (closed_no_loops _ r t es); auto.
    apply (closed_weaken _ r 2 1); auto. now apply with_loops_tour. }
  replace (zsum (fun e => nth e (c ++ repeat 0%Z (gn g)) 0%Z) es) with (zsum (fun e => nth e c 0%Z) es).
  - now apply trail_any_cost.
  - apply zsum_ext. intros e He. pose proof (trail_lt _ _ _ Htr') as Hf. rewrite Forall_forall in Hf.
    rewrite app_nth1; auto. rewrite Hc. auto.
Qed.

Lemma loop_costs g c C : costs_within g c 0 C -> (0 <= C)%Z ->
  costs_within (with_loops g) (c ++ repeat 0%Z (gn g)) 0 C.
Proof.
  intros [Hl Hf] HC. split.
  - cbn [with_loops ge]. rewrite !app_length, map_length, seq_length, repeat_length. lia.
  - apply Forall_app. split; auto. apply Forall_forall. intros x Hx. apply repeat_spec in Hx. lia.
Qed.

Lemma loop_bounds g c root dist : length c = length (ge g) -> tour_bounds g c root dist ->
  tour_bounds (with_loops g) (c ++ repeat 0%Z (gn g)) root dist.
Proof.
  intros Hc Hb t z v d Ht Hz. apply (with_loops_tour g root t) in Ht. apply (Hb t z v d Ht).
  eapply unloop_cost; eauto.
Qed.

Lemma loop_walk g w : is_walk g w -> is_walk (with_loops g) w.
Proof. induction 1; constructor; auto. apply with_loops_edge. auto. Qed.

(** ** handlers at work *)
Section BC.
Context (g : graph) (c p : list Z) (C P quota : Z) (root : nat) (fl : solve_flags) (mf : flow_lib)
  (entries : list (nat * nat)) (cons : list lin).
Context (Hg : graph_ok g) (Hp : no_parallel g) (Hl : all_loops g) (Hz : loops_cost_zero g c)
  (Hc : costs_within g c 0 C) (HC : (0 <= C)%Z) (HCm : (Z.of_nat (gn g) * C <= int_max)%Z)
  (Hpr : prizes_within g p 0 P) (HPm : (Z.of_nat (gn g) * P <= int_max)%Z)
  (Hr : root < gn g) (Hsize : (Z.of_nat (length (ge g)) <= 1000000000)%Z)
  (Hent : var_entries g entries) (Hrows : ilp_rows g p quota root cons)
  (Hmf : forall d s t, length (snd (mf d s t)) = length (n_arcs d)).

Lemma gn_small : (Z.of_nat (gn g) <= int_max)%Z.
Proof.
  assert (gn g <= length (ge g)); [|unfold int_max; lia].
  rewrite <- (seq_length (gn g) 0). rewrite <- (seq_length (length (ge g)) 0).
  assert (H : exists f, forall v, v < gn g -> joins g (f v) v v).
  { exists (fun v => match find (fun e => match nth_error (ge g) e with
                                  | Some (a, b) => Nat.eqb a v && Nat.eqb b v | None => false end) (seq 0 (length (ge g)))
                     with Some e => e | None => 0 end).
    intros v Hv. destruct (find _ _) as [e|] eqn:E.
    - apply find_some in E as [_ E]. destruct (nth_error (ge g) e) as [[a b]|] eqn:En; [|discriminate].
      apply andb_true_iff in E as [E1 E2]. apply Nat.eqb_eq in E1, E2. subst. now left.
    - exfalso. destruct (Hl v Hv) as [e He]. pose proof (find_none _ _ E e) as H.
      assert (Hlt := joins_lt _ _ _ _ He). specialize (H ltac:(apply in_seq; lia)). cbv beta in H.
      destruct He as [He|He]; rewrite He, !Nat.eqb_refl in H; discriminate. }
  destruct H as [f Hf]. rewrite <- (map_length f). apply NoDup_incl_length.
  - apply NoDup_nth_error. intros i j Hi E. rewrite map_length, seq_length in Hi.
    rewrite !nth_error_map in E.
    assert (Ei : nth_error (seq 0 (gn g)) i = Some i).
    { rewrite (nth_error_nth' _ 0) by (rewrite seq_length; lia). now rewrite seq_nth. }
    rewrite Ei in E. cbn [option_map] in E.
    destruct (nth_error (seq 0 (gn g)) j) as [k|] eqn:Ek; [|discriminate]. cbn in E. inversion E as [Ef].
    assert (Hj : j < gn g) by (apply nth_error_Some_lt in Ek; now rewrite seq_length in Ek).
    assert (k = j).
    { rewrite (nth_error_nth' _ 0) in Ek by (rewrite seq_length; lia). rewrite seq_nth in Ek by auto. cbn [plus] in Ek. congruence. }
    subst k. pose proof (Hf i Hi) as J1. pose proof (Hf j Hj) as J2. rewrite <- Ef in J2.
    destruct J1 as [J1|J1], J2 as [J2|J2]; rewrite J1 in J2; now inversion J2.
  - intros e He. apply in_map_iff in He as (v & <- & Hv). apply in_seq in Hv. apply in_seq.
    specialize (Hf v ltac:(lia)). apply joins_lt in Hf. lia.
Qed.

(** points of the relaxation have a positive edge at the root *)
Lemma root_positive s : (0 < s_den s)%Z ->
  (forall e, e < length (ge g) -> (0 <= s_num s e <= s_den s)%Z) -> Forall (row_sat s) cons ->
  exists e v, joins g e root v /\ root <> v /\ is_var_positive s e = true.
Proof.
  intros Hd Hb Hs. pose proof Hrows as (l & ds & Hj & Hds & ->).
  apply Forall_cons_iff in Hs as [_ Hs]. apply Forall_cons_iff in Hs as [Hro Hs].
  destruct (degree_constraints_ok g Hp Hl (mkSol 1%Z (fun _ => 0%Z))) as (ds' & E' & Hds').
  assert (ds' = ds).
  { clear - Hds Hds' Hp. unfold degree_rows in *. revert ds' Hds'. induction Hds as [|v r vs rows (l & Hj & ->) _ IH];
      intros ds' H'; inversion H' as [|? r' ? rows' (l' & Hj' & ->)]; subst; auto.
    rewrite (Hp l' l v v Hj' Hj). f_equal. auto. }
  subst ds'. pose proof (degree_rows_frac g s ds Hp Hl Hg E' Hs root l Hj) as Hdeg.
  assert (Hroot : s_num s l = s_den s).
  { destruct Hro as [H1 H2]. cbn in H1, H2. specialize (H1 1%Z eq_refl). specialize (H2 1%Z eq_refl).
    destruct (s_num s l); lia. }
  unfold degree_at, cut_value in Hdeg. rewrite edge_sum_terms in Hdeg.
  destruct (existsb (fun e => match nth_error (ge g) e with
                     | Some pr => crosses [root] pr && is_var_positive s e | None => false end)
             (seq 0 (length (ge g)))) eqn:Ex.
  - apply existsb_exists in Ex as (e & He & Hx). destruct (nth_error (ge g) e) as [[a b]|] eqn:E; [|discriminate].
    apply andb_true_iff in Hx as [Hx Hpos]. unfold crosses in Hx. cbn [fst snd memb existsb] in Hx.
    rewrite !orb_false_r in Hx.
    destruct (Nat.eqb_spec a root) as [Ha|Ha], (Nat.eqb_spec b root) as [Hb'|Hb']; try discriminate Hx.
    + subst a. exists e, b. split; [now left|]. auto.
    + subst b. exists e, a. split; [now right|]. auto.
  - exfalso.
    assert (G : forall e, In e (seq 0 (length (ge g))) ->
      (eterm (crosses [root]) (s_num s) (ge g) e * 1000000000 <= s_den s)%Z).
    { intros e He. unfold eterm. destruct (nth_error (ge g) e) as [pr|] eqn:E; [|lia].
      destruct (crosses [root] pr) eqn:Ec; [|lia].
      assert (Hlt : e < length (ge g)) by (apply in_seq in He; lia). specialize (Hb e Hlt).
      destruct (is_var_positive s e) eqn:Hv.
      - exfalso. assert (existsb (fun e => match nth_error (ge g) e with
                     | Some pr => crosses [root] pr && is_var_positive s e | None => false end)
             (seq 0 (length (ge g))) = true); [|congruence].
        apply existsb_exists. exists e. split; auto. now rewrite E, Ec, Hv.
      - unfold is_var_positive, scip_is_zero in Hv. apply andb_false_iff in Hv as [Hv|Hv].
        + apply negb_false_iff, Z.leb_le in Hv. rewrite Z.abs_eq in Hv by lia. lia.
        + apply Z.ltb_ge in Hv. lia. }
    assert (S : forall L f D, (forall e, In e L -> (f e * 1000000000 <= D)%Z) ->
      (zsum f L * 1000000000 <= D * Z.of_nat (length L))%Z).
    { induction L as [|e L IH]; intros f D HL; cbn [zsum length]; [lia|].
      specialize (IH f D (fun e' He' => HL e' (or_intror He'))). specialize (HL e (or_introl eq_refl)).
      rewrite Nat2Z.inj_succ. lia. }
    specialize (S _ _ _ G). rewrite Hdeg, seq_length, Hroot in S. nia.
Qed.

Definition acc (s : sol) : Prop := accepted fl g p quota root entries s.

(** the accepted points that satisfy the model are the feasible tours *)
Lemma acc_tour s : acc s -> Forall (row_sat s) cons ->
  exists t z, tour_from g root t /\ incidence g t s /\ meets_quota p quota t /\ any_cost g c t z /\
    (0 <= z <= Z.of_nat (gn g) * C)%Z /\
    lin_value (s_num s) (map (fun e => (e, nth e c 0%Z)) (eids g)) = (z * s_den s)%Z /\ (0 < s_den s)%Z.
Proof.
  intros (Hb & Hck & _) Hs.
  destruct (proj1 (rows_incidence g p quota root cons s entries Hg Hp Hl (proj1 Hpr) Hr Hrows Hb Hent) (conj Hs Hck))
    as (t & Ht & Hi & Hq).
  assert (Hw : is_walk g t) by (destruct Ht as (vs & _ & _ & _ & Hw & _); exact Hw).
  assert (Hne : t <> []) by (destruct Ht as (vs & -> & _); discriminate).
  destruct (trail_exists g t Hw Hne) as [es Htr].
  pose proof (trail_any_cost g c t es (proj1 Hc) Htr) as Hcost.
  set (z := zsum (fun e => nth e c 0%Z) es) in *.
  exists t, z. split; auto. split; auto. split; auto. split; auto.
  pose proof (any_cost_walk_cost g c t z Hp Hcost) as Hwc.
  pose proof (walk_cost_bounds g c t z 0 C Hc Hwc) as Hb'. pose proof (tour_len g root t Ht) as Hlen.
  split; [nia|]. split; [|apply Hb].
  apply (incidence_objective g Hp s c root t z); auto. apply (proj1 Hc).
Qed.

Lemma tour_acc t s : tour_from g root t -> incidence g t s -> meets_quota p quota t ->
  acc s /\ Forall (row_sat s) cons.
Proof.
  intros Ht Hi Hq. pose proof (proj1 Hi) as Hb.
  destruct (proj2 (rows_incidence g p quota root cons s entries Hg Hp Hl (proj1 Hpr) Hr Hrows Hb Hent)) as [H1 H2].
  { exists t. auto. }
  split; auto. split; auto. split; auto. intros _.
  assert (HP0 : prizes_within g p (- P) P).
  { split; [apply Hpr|]. eapply Forall_impl; [|apply Hpr]. cbn. lia. }
  destruct (cover_violated_ok g p P quota root s Hg gn_small Hr HP0 HPm)
    as (S & b & zS & ES & HzS & Hn & _ & _ & Hcon & Eb & Hiff).
  unfold cycle_cover_check, is_cycle_cover_violated. rewrite ES. cbn [bind]. rewrite Eb. cbn [bind].
  destruct b; [reflexivity|]. exfalso.
  destruct (Z.lt_ge_cases zS quota) as [Hlt|Hge]; [|assert (false = true) by (apply Hiff; lia); discriminate].
  assert (Hp0 : Forall (fun x => 0 <= x)%Z p) by (eapply Forall_impl; [|apply Hpr]; cbn; lia).
  destruct (quota_outside g p quota S zS root t Hp0 Hn HzS Hlt Ht Hq) as (q & Hq1 & Hq2).
  apply Hq2, Hcon. destruct (incidence_sup g s root t Ht Hi) as (_ & es & Htr & HPe & _).
  apply (trail_connected g s t es); auto.
  - intros e He. apply (sup_positive g s Hb). now apply (Permutation_in _ HPe).
  - destruct Ht as (vs & -> & _). reflexivity.
Qed.

Definition hok (o : option cover_hdlr) : Prop :=
  forall h, o = Some h -> length (ch_dist h) = gn g /\ tour_bounds g c root (ch_dist h).

Definition bok (st : bc) : Prop := hok (b_dp st) /\ hok (b_sp st).

(** the event bound is not below [z] *)
Definition bounded (z : Z) (cb : callback) : Prop :=
  match cb with BestSolFound n d => (z * d <= n)%Z | _ => True end.

(** what SCIP promises about one call *)
Definition callable (cb : callback) : Prop :=
  match cb with
  | BestSolFound n d => (0 < d)%Z /\ exists z, n = (z * d)%Z /\ (0 <= z <= int_max)%Z
  | SepaSubtour lib s => fl_sec_maxflow fl = true ->
      exists e v, joins g e root v /\ root <> v /\ is_var_positive s e = true
  | SepaCycleCover _ _ => True
  end.

Lemma cover_event_ok n d z o : hok o -> (0 < d)%Z -> n = (z * d)%Z -> (0 <= z <= int_max)%Z ->
  exists o', cover_event g root (n, d) o = Ok o' /\ hok o' /\
    forall t y s, tour_from g root t -> any_cost g c t y -> incidence g t s -> (y * d <= n)%Z ->
      Forall (row_sat s) (opt_rows o) -> Forall (row_sat s) (opt_rows o').
Proof.
  intros Ho Hd -> Hzb. destruct o as [h|]; cbn [cover_event].
  - destruct (Ho h eq_refl) as [H1 H2].
    assert (Ecast : cast_int (fst ((z * d)%Z, d)) (snd ((z * d)%Z, d)) = Ok z).
    { cbn [fst snd]. unfold cast_int. rewrite Z.quot_mul by lia. apply chk_ok. unfold int_min, int_max in *. lia. }
    destruct (cover_exec_ok g root h ((z * d)%Z, d) z Hl Hr H1 Ecast) as (rows & Hrw & E).
    rewrite E. cbn [bind]. eexists. split; [reflexivity|]. split.
    + intros h' Eh. inversion Eh; subst. cbn. auto.
    + intros t y s Ht Hy Hi Hle HF. cbn [opt_rows ch_rows] in *. apply Forall_app. split; auto.
      apply (covers_valid g c root (ch_dist h) z rows t y s); auto. nia.
  - exists None. split; [reflexivity|]. split; [discriminate|]. auto.
Qed.

Lemma run_callback_ok st cb : bok st -> callable cb ->
  exists st', run_callback fl mf g p quota root entries st cb = Ok st' /\ bok st' /\
    forall t y s, tour_from g root t -> any_cost g c t y -> incidence g t s -> meets_quota p quota t ->
      bounded y cb -> Forall (row_sat s) (bc_rows st) -> Forall (row_sat s) (bc_rows st').
Proof.
  intros [Hdp Hsp] Hcb. destruct cb as [lib s|lib s|n d]; cbn [run_callback callable bounded] in *.
  - destruct (separate_subtour_valid lib mf g s entries root (fl_sec_disjoint fl) (fl_sec_maxflow fl)
      (mkSepa (b_sec st) DidNotFind) Hg Hl Hent gn_small Hr Hcb) as (sp & nd & nf & added & E & Ea & _ & _ & _ & Hv).
    { intros. apply Hmf. }
    rewrite E. cbn [bind]. eexists. split; [reflexivity|]. split; [split; auto|].
    intros t y s' Ht _ Hi _ _ HF. unfold bc_rows in *. cbn [b_dp b_sp b_sec b_cc sp_rows] in *.
    rewrite !Forall_app in *. rewrite Ea. rewrite Forall_app. repeat split; try tauto.
    eapply Forall_impl; [|exact Hv]. cbn. intros row H. eapply H; eauto.
  - destruct (fl_cycle_cover fl); [|exists st; split; [reflexivity|]; split; [split; auto|]; auto].
    unfold cycle_cover_sepalp. cbn [fst snd].
    assert (HP0 : prizes_within g p (- P) P).
    { split; [apply Hpr|]. eapply Forall_impl; [|apply Hpr]. cbn. lia. }
    assert (Hp0 : Forall (fun x => 0 <= x)%Z p) by (eapply Forall_impl; [|apply Hpr]; cbn; lia).
    destruct (separate_cover_ok lib g p P quota root s (mkSepa (b_cc st) DidNotRun) Hg Hl gn_small Hr HP0 HPm)
      as (sp & S & z & E & _ & _ & _ & H1 & H2).
    rewrite E. cbn [bind]. eexists. split; [reflexivity|]. split; [split; auto|].
    intros t y s' Ht _ Hi Hq _ HF. unfold bc_rows in *. cbn [b_dp b_sp b_sec b_cc] in *.
    rewrite !Forall_app in *. repeat split; try tauto.
    destruct (Z.lt_ge_cases z quota) as [Hlt|Hge].
    + destruct (H2 Hlt) as (row & Ha & Hv & _). unfold adds_row in Ha. cbn [sp_rows] in Ha.
      destruct (efficacious lib row); subst sp; cbn [sp_rows]; [|tauto]. apply Forall_app. split; [tauto|].
      constructor; [|constructor]. apply (Hv Hp0 t s'); auto.
    + rewrite (H1 ltac:(lia)). cbn [sp_rows]. tauto.
  - destruct Hcb as [Hd (z & En & Hzb)].
    destruct (cover_event_ok n d z (b_dp st) Hdp Hd En Hzb) as (o1 & E1 & K1 & V1).
    destruct (cover_event_ok n d z (b_sp st) Hsp Hd En Hzb) as (o2 & E2 & K2 & V2).
    rewrite E1. cbn [bind]. rewrite E2. cbn [bind]. eexists. split; [reflexivity|]. split; [split; auto|].
    intros t y s' Ht Hy Hi _ Hb HF. unfold bc_rows in *. cbn [b_dp b_sp b_sec b_cc] in *.
    rewrite !Forall_app in *. repeat split; try tauto.
    + apply (V1 t y s'); tauto.
    + apply (V2 t y s'); tauto.
Qed.

Lemma run_callbacks_ok cbs : forall st, bok st -> Forall callable cbs ->
  exists st', foldM (run_callback fl mf g p quota root entries) cbs st = Ok st' /\ bok st' /\
    forall t y s, tour_from g root t -> any_cost g c t y -> incidence g t s -> meets_quota p quota t ->
      Forall (bounded y) cbs -> Forall (row_sat s) (bc_rows st) -> Forall (row_sat s) (bc_rows st').
Proof.
  induction cbs as [|cb cbs IH]; intros st Hst Hcb.
  - exists st. split; [reflexivity|]. auto.
  - apply Forall_cons_iff in Hcb as [H1 H2].
    destruct (run_callback_ok st cb Hst H1) as (st1 & E1 & K1 & V1).
    destruct (IH st1 K1 H2) as (st2 & E2 & K2 & V2).
    exists st2. cbn [foldM]. rewrite E1. cbn [bind]. split; auto. split; auto.
    intros t y s Ht Hy Hi Hq Hb HF. apply Forall_cons_iff in Hb as [B1 B2]. eauto.
Qed.
End BC.

Lemma scale_le a b d1 d2 : (0 < d1)%Z -> (0 < d2)%Z -> (a * d1 * d2 <= b * d2 * d1)%Z -> (a <= b)%Z.
Proof.
  intros H1 H2 H. apply (Z.mul_le_mono_pos_r _ _ (d1 * d2)); [now apply Z.mul_pos_pos|].
  replace (a * (d1 * d2))%Z with (a * d1 * d2)%Z by ring. replace (b * (d1 * d2))%Z with (b * d2 * d1)%Z by ring. exact H.
Qed.

(** ** before solving *)
Lemma init_hok g c root heur dist ub : all_loops g -> root < gn g -> length dist = gn g ->
  tour_bounds g c root dist -> total_cost_edges c heur = Ok ub ->
  exists h, init_cost_cover g c (var_map g) root heur dist = Ok h /\ hok g c root (Some h) /\
    forall t y s, tour_from g root t -> any_cost g c t y -> incidence g t s -> ((0 < ub)%Z -> (y <= ub)%Z) ->
      Forall (row_sat s) (ch_rows h).
Proof.
  intros Hl Hr Hlen Hb Hub.
  destruct (init_cover_ok g c root heur dist ub Hl Hr Hlen Hub) as (h & rows & E & Ed & <- & _ & _ & Hpos & Hneg).
  exists h. split; auto. split.
  - intros h' Eh. inversion Eh; subst h'. rewrite Ed. auto.
  - intros t y s Ht Hy Hi Hle. destruct (Z.lt_ge_cases 0 ub) as [H|H].
    + apply (covers_valid g c root dist ub (ch_rows h) t y s); auto.
    + rewrite (Hneg H). constructor.
Qed.

Lemma setup_ok tb fl m C root heur dist : let g := i_graph m in let c := i_cost m in
  good_pick tb -> graph_ok g -> all_loops g -> costs_within g c 0 C -> (0 <= C)%Z ->
  (2 * (Z.of_nat (gn g) * C) < int_max)%Z -> root < gn g ->
  Forall (fun e => e < length (ge g)) heur -> (Z.of_nat (length heur) * C <= int_max)%Z ->
  (fl_disjoint_paths fl = true -> length dist = gn g /\ tour_bounds g c root dist) ->
  (fl_shortest_path fl = true -> forall v, v < gn g -> exists w, is_walk g w /\ leads root v w) ->
  exists st, solve_setup tb fl m heur root dist = Ok st /\ bok g c root st /\
    forall t y s, tour_from g root t -> any_cost g c t y -> incidence g t s ->
      (heur <> [] -> (y <= zsum (fun e => nth e c 0%Z) heur)%Z) -> Forall (row_sat s) (bc_rows st).
Proof.
  intros g c Htb Hg Hl Hc HC Hmax Hr Hh Hhm Hdp Hsp. unfold solve_setup. fold g. fold c.
  destruct (total_cost_zsum g c C heur Hc HC Hh Hhm) as [Eub Hub]. rewrite Eub. cbn [bind].
  set (ub := zsum (fun e => nth e c 0%Z) heur) in *.
  assert (A : exists o, (if fl_disjoint_paths fl
      then do h <- init_cost_cover g c (var_map g) root heur dist; Ok (Some h) else Ok None) = Ok o /\
    hok g c root o /\ forall t y s, tour_from g root t -> any_cost g c t y -> incidence g t s ->
      ((0 < ub)%Z -> (y <= ub)%Z) -> Forall (row_sat s) (opt_rows o)).
  { destruct (fl_disjoint_paths fl).
    - destruct (Hdp eq_refl) as [H1 H2]. destruct (init_hok g c root heur dist ub Hl Hr H1 H2 Eub) as (h & E & K & V).
      exists (Some h). rewrite E. cbn [bind opt_rows]. auto.
    - exists None. split; auto. split; [discriminate|]. constructor. }
  assert (B : exists o, (if fl_shortest_path fl
      then do ds <- shortest_path_distances tb g c c root;
           do h <- init_cost_cover g c (var_map g) root heur ds; Ok (Some h) else Ok None) = Ok o /\
    hok g c root o /\ forall t y s, tour_from g root t -> any_cost g c t y -> incidence g t s ->
      ((0 < ub)%Z -> (y <= ub)%Z) -> Forall (row_sat s) (opt_rows o)).
  { destruct (fl_shortest_path fl).
    - destruct (doubled_ok tb g c c root C Htb Hg Hc HC Hmax Hr (Hsp eq_refl)) as (ds & Ed & Hlen & Hx).
      rewrite Ed. cbn [bind]. pose proof (doubled_bounds g c root ds Hlen Hx) as H2.
      destruct (init_hok g c root heur ds ub Hl Hr Hlen H2 Eub) as (h & E & K & V).
      exists (Some h). rewrite E. cbn [bind opt_rows]. auto.
    - exists None. split; auto. split; [discriminate|]. constructor. }
  destruct A as (o1 & E1 & K1 & V1), B as (o2 & E2 & K2 & V2). rewrite E1. cbn [bind]. rewrite E2. cbn [bind].
  eexists. split; [reflexivity|]. split; [split; auto|].
  intros t y s Ht Hy Hi Hle. unfold bc_rows. cbn [b_dp b_sp b_sec b_cc].
  assert (Hle' : (0 < ub)%Z -> (y <= ub)%Z).
  { intros H. apply Hle. intros ->. cbn in ub. subst ub. lia. }
  rewrite !Forall_app. repeat split; eauto.
Qed.

(** ** the whole of it *)
Section WHOLE.
Context (tb : tiebreak) (fl : solve_flags) (mf : flow_lib) (g : graph) (c p : list Z) (C P quota : Z)
  (root : nat) (heur : list nat) (dist : list Z).
Context (Htb : good_pick tb) (Hmf : forall d s t, length (snd (mf d s t)) = length (n_arcs d))
  (Hg : graph_ok g) (Hp : no_parallel g) (Hf : loop_free g)
  (Hc : costs_within g c 0 C) (HC : (0 <= C)%Z) (HCm : (2 * (Z.of_nat (gn g) * C) < int_max)%Z)
  (Hpr : prizes_within g p 0 P) (HPm : (Z.of_nat (gn g) * P <= int_max)%Z)
  (Hq : (- int_max <= quota <= int_max)%Z) (Hr : root < gn g)
  (Hsize : (Z.of_nat (length (ge g) + gn g) <= 1000000000)%Z)
  (Hh : heur = [] \/ exists t, heur_of g root heur t)
  (Hdp : fl_disjoint_paths fl = true -> length dist = gn g /\ tour_bounds g c root dist)
  (Hsp : fl_shortest_path fl = true -> forall v, v < gn g -> exists w, is_walk g w /\ leads root v w).

Let L := with_loops g.
Let cL := c ++ repeat 0%Z (gn g).

Lemma L_ok : graph_ok L /\ no_parallel L /\ all_loops L /\ loops_cost_zero L cL /\ costs_within L cL 0 C /\
  prizes_within L p (- int_max) int_max /\ (Z.of_nat (length (ge L)) <= 1000000000)%Z.
Proof.
  split; [now apply with_loops_ok|]. split; [now apply with_loops_parallel|]. split; [apply with_loops_all|].
  split; [apply with_loops_zero; auto; apply Hc|]. split; [now apply loop_costs|]. split.
  - destruct Hpr as [H1 H2]. split; auto. apply Forall_forall. intros x Hx.
    pose proof H2 as H3. rewrite Forall_forall in H3. specialize (H3 x Hx). unfold int_max in *. nia.
  - unfold L. cbn [with_loops ge]. rewrite app_length, map_length, seq_length. lia.
Qed.

Lemma feasible_L t z : feasible_tour g c p quota root t z <->
  tour_from L root t /\ meets_quota p quota t /\ any_cost L cL t z.
Proof.
  unfold feasible_tour. rewrite <- (with_loops_tour g root t). fold L. split; intros (H1 & H2 & H3); split; auto; split; auto.
  - apply walk_cost_any_cost; [destruct H1 as (vs & -> & _); discriminate|].
    apply with_loops_cost; auto. apply Hc.
  - apply any_cost_walk_cost; auto. apply (unloop_cost g c root t z); auto; [now apply (with_loops_tour g root t)|apply Hc].
Qed.

Lemma pairs_ok G es : Forall (fun e => e < length (ge G)) es ->
  exists r, get_vertex_pairs G es = Ok r /\ Forall2 (fun e uv => nth_error (ge G) e = Some uv) es r.
Proof.
  unfold get_vertex_pairs. induction 1 as [|e es He _ (r & E & HF)]; cbn [mapM].
  - exists []. split; auto.
  - destruct (nth_error (ge G) e) as [uv|] eqn:Euv; [|apply nth_error_None in Euv; lia]. unfold endpoints at 1. rewrite Euv. cbn [bind]. rewrite E.
    cbn [bind]. exists (uv :: r). split; auto.
Qed.

Lemma result_edges entries s t : var_entries L entries -> tour_from L root t -> incidence L t s ->
  exists es r, get_solution_edges L s entries = Ok es /\ get_vertex_pairs L es = Ok r /\ edges_of_tour g t r.
Proof.
  intros He Ht Hi. destruct (incidence_sup L s root t Ht Hi) as (Hb & es' & Htr & HP & _).
  destruct (solution_edges_ok L s Hb entries He) as (es & Ee & HPe).
  assert (Htr' : trail g t es').
  { apply with_loops_trail; auto. apply (closed_no_loops _ root t es'); auto. apply (closed_weaken _ root 2 1); auto; lia. }
  assert (HPs : Permutation es es') by (eapply Permutation_trans; [exact HPe|now apply Permutation_sym]).
  assert (Hlt : Forall (fun e => e < length (ge g)) es).
  { apply Forall_forall. intros e Hin. pose proof (trail_lt _ _ _ Htr') as H. rewrite Forall_forall in H.
    apply H. now apply (Permutation_in _ HPs). }
  destruct (pairs_ok L es) as (r & Er & HF).
  { eapply Forall_impl; [|exact Hlt]. cbn. intros e H. unfold L. cbn [with_loops ge]. rewrite app_length. lia. }
  exists es, r. split; auto. split; auto. exists es, es'. split; auto. split; auto.
  clear - HF Hlt. induction HF as [|e uv es r Euv _ IH]; constructor.
  - apply Forall_cons_iff in Hlt as [H _]. unfold L in Euv. cbn [with_loops ge] in Euv. rewrite nth_error_app1 in Euv; auto.
  - apply IH. now apply Forall_cons_iff in Hlt as [_ H].
Qed.

Theorem solve_whole :
  exists m st, solve_start tb fl g heur c p quota root dist = Ok (m, st) /\ i_graph m = looped g /\
    forall entries cbs sols, var_entries (i_graph m) entries ->
      scip_run m (accepted fl (i_graph m) p quota root entries) cbs sols ->
      exists st' r, solve_finish fl mf m st p quota root entries cbs sols = Ok (st', r) /\
        ((sols = [] /\ r = []) \/
         exists t z, feasible_tour g c p quota root t z /\ edges_of_tour g t r) /\
        ((forall t, heur_of g root heur t -> meets_quota p quota t) ->
         scip_finished m (accepted fl (i_graph m) p quota root entries) (bc_rows st) (bc_rows st') sols ->
         (exists t z, optimal_tour g c p quota root t z /\ edges_of_tour g t r) \/
         (r = [] /\ forall t z, ~ feasible_tour g c p quota root t z)).
Proof.
  destruct L_ok as (Lg & Lp & Ll & Lz & Lc & Lpr & Lsize).
  assert (Lpr' : prizes_within L p 0 P) by exact Hpr.
  assert (LrL : root < gn L) by exact Hr.
  assert (HCm' : (Z.of_nat (gn L) * C <= int_max)%Z).
  { change (gn L) with (gn g). assert (0 <= Z.of_nat (gn g) * C)%Z by (apply Z.mul_nonneg_nonneg; lia). lia. }
  assert (HhL : heur = [] \/ exists t es, tour_from L root t /\ trail L t es /\ Permutation heur es).
  { destruct Hh as [->|(t & Ht & es & Htr & HP)]; auto. right. exists t, es.
    split; [now apply with_loops_tour|]. split; auto. now apply trail_with_loops. }
  destruct (model_pctsp_loops L heur cL p quota root Lg Lp Ll (proj1 Lc) Lpr Hq LrL HhL)
    as (rows & h & Em & Hrows & Hh0 & Hh1).
  set (m := mkIlp L cL (map (fun e => (e, nth e cL 0%Z)) (eids L)) rows h) in *.
  assert (Hhv : Forall (fun e => e < length (ge L)) heur /\ (Z.of_nat (length heur) * C <= int_max)%Z).
  { destruct HhL as [->|(t & es & Ht & Htr & HP)].
    - split; [constructor|]. cbn. unfold int_max. lia.
    - split.
      + apply Forall_forall. intros e He. pose proof (trail_lt _ _ _ Htr) as H. rewrite Forall_forall in H.
        apply H. now apply (Permutation_in _ HP).
      + rewrite (Permutation_length HP). pose proof (tour_len L root t Ht). apply trail_length in Htr.
        assert (length es <= gn L) by lia. nia. }
  destruct Hhv as [Hhv Hhm].
  destruct (setup_ok tb fl m C root heur dist Htb Lg Ll Lc HC HCm LrL Hhv Hhm) as (st & Est & Kst & Vst).
  { intros E. destruct (Hdp E) as [H1 H2]. split; auto. apply loop_bounds; auto. apply Hc. }
  { intros E v Hv. destruct (Hsp E v Hv) as (w & H1 & H2). exists w. split; auto. now apply loop_walk. }
  cbn [m i_graph i_cost] in Kst, Vst.
  exists m, st. split.
  { unfold solve_start. rewrite model_pctsp_simple by (auto; apply Hc). fold L. fold cL. rewrite Em. cbn [bind].
    rewrite Est. reflexivity. }
  split; [reflexivity|]. intros entries cbs sols Hent Hrun. cbn [m i_graph] in Hent, Hrun |- *.
  set (A := accepted fl L p quota root entries) in *.
  destruct Hrun as [Hsols Hev Hpts]. cbn [m i_cons i_obj i_graph] in Hsols, Hev, Hpts.
  assert (AT : forall s, A s -> Forall (row_sat s) rows -> exists t z, tour_from L root t /\ incidence L t s /\
    meets_quota p quota t /\ any_cost L cL t z /\ (0 <= z <= Z.of_nat (gn L) * C)%Z /\
    lin_value (s_num s) (map (fun e => (e, nth e cL 0%Z)) (eids L)) = (z * s_den s)%Z /\ (0 < s_den s)%Z).
  { intros s. apply (acc_tour L cL p C P quota root fl mf entries rows); auto. }
  assert (Hcb : Forall (callable L root fl) cbs).
  { apply Forall_forall. intros cb Hin. destruct cb as [lib s|lib s|n d]; cbn [callable]; auto.
    - intros _. destruct (Hpts lib s Hin) as (H1 & H2 & H3).
      apply (root_positive L p quota root mf rows); auto.
    - destruct (Hev n d Hin) as (H1 & s & b & H2 & H3 & H4 & _). split; auto.
      destruct (AT s H2 H3) as (t & z & _ & _ & _ & _ & Hzb & Hobj & Hden). exists z. split; [|lia].
      rewrite Hobj in H4. nia. }
  destruct (run_callbacks_ok L cL p P quota root fl mf entries Lg Ll Lpr' HPm LrL Lsize Hent Hmf
    cbs st Kst Hcb) as (st' & Erun & _ & Vrun).
  exists st'. unfold solve_finish. cbn [m i_graph]. rewrite Erun. cbn [bind].
  (* the best solution *)
  assert (Hbest : exists r, (do es <- match sols with [] => Ok [] | s :: _ => get_solution_edges L s entries end;
              do r <- get_vertex_pairs L es; Ok (st', r)) = Ok (st', r) /\
    ((sols = [] /\ r = []) \/
     exists b t z, hd_error sols = Some b /\ tour_from L root t /\ meets_quota p quota t /\ any_cost L cL t z /\
       lin_value (s_num b) (map (fun e => (e, nth e cL 0%Z)) (eids L)) = (z * s_den b)%Z /\ (0 < s_den b)%Z /\
       edges_of_tour g t r)).
  { destruct sols as [|b sols].
    - exists []. cbn [bind]. split; auto.
    - apply Forall_cons_iff in Hsols as [[Hb1 Hb2] _].
      destruct (AT b Hb1 Hb2) as (t & z & H1 & H2 & H3 & H4 & _ & H5 & H6).
      destruct (result_edges entries b t Hent H1 H2) as (es & r & E1 & E2 & HE).
      exists r. rewrite E1. cbn [bind]. rewrite E2. cbn [bind]. split; auto. right. exists b, t, z. auto 10. }
  destruct Hbest as (r & Er & Hbest). exists r. split; [exact Er|]. split.
  { destruct Hbest as [H|(b & t & z & _ & H1 & H2 & H3 & _ & _ & H4)]; auto.
    right. exists t, z. split; auto. apply feasible_L. auto. }
  intros Hquota [Hstart Hall]. cbn [m i_heur i_cons i_obj] in Hstart, Hall.
  (* any better tour would satisfy all rows *)
  assert (Hopt : forall t z, tour_from L root t -> meets_quota p quota t -> any_cost L cL t z ->
    exists b t' z', hd_error sols = Some b /\ lin_value (s_num b) (map (fun e => (e, nth e cL 0%Z)) (eids L)) = (z' * s_den b)%Z /\
      tour_from L root t' /\ (0 < s_den b)%Z /\ (z' <= z)%Z).
  { intros t z Ht Hqt Hz.
    assert (Hsb : forall b, hd_error sols = Some b -> exists t' z', tour_from L root t' /\
      lin_value (s_num b) (map (fun e => (e, nth e cL 0%Z)) (eids L)) = (z' * s_den b)%Z /\ (0 < s_den b)%Z).
    { intros b Eb. destruct sols as [|b' sols]; [discriminate|]. inversion Eb; subst b'.
      apply Forall_cons_iff in Hsols as [[Hb1 Hb2] _].
      destruct (AT b Hb1 Hb2) as (t' & z' & H1 & _ & _ & _ & _ & H5 & H6). exists t', z'. auto. }
    destruct (match hd_error sols with
              | Some b => (lin_value (s_num b) (map (fun e => (e, nth e cL 0%Z)) (eids L)) <=? z * s_den b)%Z
              | None => false end) eqn:Ecmp.
    - destruct (hd_error sols) as [b|] eqn:Eb; [|discriminate]. apply Z.leb_le in Ecmp.
      destruct (Hsb b eq_refl) as (t' & z' & H1 & H2 & H3). exists b, t', z'. split; auto. split; auto. split; auto. split; auto.
      rewrite H2 in Ecmp. nia.
    - (* the incidence vector of t *)
      assert (Hw : is_walk L t) by (destruct Ht as (vs & _ & _ & _ & Hw & _); exact Hw).
      destruct (trail_exists L t Hw) as [es Htr]; [destruct Ht as (vs & -> & _); discriminate|].
      destruct (heuristic_edges_ok L root t es es Lg Lp Ll Ht Htr (Permutation_refl _)) as (s & _ & Hi).
      destruct (tour_acc L p P quota root fl mf entries rows Lg Lp Ll Lpr' HPm LrL Lsize Hent Hrows Hmf t s Ht Hi Hqt) as [HA HrowsS].
      pose proof (proj1 Hi) as [Hden _].
      assert (Hobj : lin_value (s_num s) (map (fun e => (e, nth e cL 0%Z)) (eids L)) = (z * s_den s)%Z).
      { apply (incidence_objective L Lp s cL root t z); auto. apply (proj1 Lc). now apply any_cost_walk_cost. }
      assert (Hrows' : Forall (row_sat s) (bc_rows st')).
      { apply (Vrun t z s); auto.
        - apply Forall_forall. intros cb Hin. destruct cb as [| |n d]; cbn [bounded]; auto.
          destruct (Hev n d Hin) as (H1 & s1 & b & H2 & H3 & H4 & Eb & Hnw).
          rewrite Eb in Ecmp. apply Z.leb_gt in Ecmp. destruct (Hsb b Eb) as (t' & z' & _ & Hz' & Hdb).
          destruct (AT s1 H2 H3) as (t1 & z1 & _ & _ & _ & _ & _ & Ho1 & Hd1).
          unfold no_worse in Hnw. rewrite Ho1, Hz' in *. assert (z < z')%Z by nia.
          assert (z' <= z1)%Z by (eapply scale_le; [exact Hdb|exact Hd1|exact Hnw]).
          assert (n = d * z1)%Z by (apply (Z.mul_cancel_r _ _ (s_den s1)); [lia|]; rewrite H4; ring). nia.
        - apply (Vst t z s); auto. intros Hne.
          destruct HhL as [?|(th & eh & Hth & Htrh & HPh)]; [contradiction|].
          destruct (Hh1 th eh Hth Htrh HPh) as (sh & Eh & Hih).
          assert (Hqh : meets_quota p quota th).
          { apply Hquota. split; [now apply with_loops_tour|]. exists eh. split; auto.
            apply with_loops_trail; auto. apply (closed_no_loops _ root th eh); auto. apply (closed_weaken _ root 2 1); auto; lia. }
          destruct (tour_acc L p P quota root fl mf entries rows Lg Lp Ll Lpr' HPm LrL Lsize Hent Hrows Hmf th sh Hth Hih Hqh) as [HAh HrowsH].
          assert (Hch : any_cost L cL th (zsum (fun e => nth e cL 0%Z) heur)).
          { rewrite (zsum_perm _ _ _ HPh). apply trail_any_cost; auto. apply Lc. }
          assert (Hobjh : lin_value (s_num sh) (map (fun e => (e, nth e cL 0%Z)) (eids L))
            = (zsum (fun e => nth e cL 0%Z) heur * s_den sh)%Z).
          { apply (incidence_objective L Lp sh cL root th); auto. apply (proj1 Lc). now apply any_cost_walk_cost. }
          destruct (Hstart sh Eh HAh) as (b & Eb & Hnw).
          { apply Forall_app. split; auto. apply (Vst th (zsum (fun e => nth e cL 0%Z) heur) sh); auto. lia. }
          rewrite Eb in Ecmp. apply Z.leb_gt in Ecmp. destruct (Hsb b Eb) as (t' & z' & _ & Hz' & Hdb).
          unfold no_worse in Hnw. rewrite Hobjh, Hz' in *. pose proof (proj1 Hih) as [Hdh _].
          assert (z < z')%Z by nia.
          assert (z' <= zsum (fun e => nth e cL 0) heur)%Z by (eapply scale_le; [exact Hdb|exact Hdh|exact Hnw]). lia. }
      destruct (Hall s HA) as (b & Eb & Hnw); [apply Forall_app; auto|].
      destruct (Hsb b Eb) as (t' & z' & H1 & H2 & H3). exists b, t', z'. split; auto. split; auto. split; auto. split; auto.
      unfold no_worse in Hnw. rewrite Hobj, H2 in Hnw. eapply scale_le; [exact H3|exact Hden|exact Hnw]. }
  destruct Hbest as [[Es Er0]|(b & t & z & Eb & H1 & H2 & H3 & H4 & H5 & H6)].
  - right. split; auto. intros t z Hfe. apply feasible_L in Hfe as (F1 & F2 & F3).
    destruct (Hopt t z F1 F2 F3) as (b & t' & z' & Eb & _). subst sols. discriminate.
  - left. exists t, z. split; auto. split; [apply feasible_L; auto|].
    intros t2 z2 Hfe. apply feasible_L in Hfe as (F1 & F2 & F3).
    destruct (Hopt t2 z2 F1 F2 F3) as (b' & t' & z' & Eb' & Ho & _ & Hd' & Hle).
    rewrite Eb in Eb'. inversion Eb'; subst b'. rewrite H4 in Ho. nia.
Qed.
End WHOLE.
