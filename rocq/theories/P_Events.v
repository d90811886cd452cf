(** * P_Events: proofs about the event handlers *)
From Verif Require Import Base P_Base M_Stats M_Events Spec_Stats P_Stats.
Open Scope list_scope.
Open Scope Z_scope.

Section E.
Context {D : Type} (zero : D).
Implicit Types (es pre post : list (event D)) (st : list (node_stats D)) (n m : node D).

Notation no_stats := (no_stats zero).
Notation handle := (handle zero).

Definition node_ok n : Prop := 1 <= nd_id n < 4294967296 /\ (1 < nd_id n -> nd_parent n <> None).

(** The entry [newStatsForNode] makes. *)
Definition fresh n : node_stats D :=
  mkNode (nd_lower n) (nd_id n) 0 0 0 0 0
    (if 1 <? nd_id n then match nd_parent n with Some p => u32 p | None => 1 end else 1) (nd_upper n).

Lemma new_stats_ok n : node_ok n -> new_stats_for_node n = Ok (fresh n).
Proof.
  intros [H1 H2]. unfold new_stats_for_node, fresh. rewrite u32_small by lia.
  destruct (1 <? nd_id n) eqn:E; [|reflexivity].
  destruct (nd_parent n); [reflexivity|]. exfalso. apply H2; [lia|reflexivity].
Qed.

(** A writing event. *)
Definition padded n st := st ++ repeat no_stats (Z.to_nat (nd_id n) - List.length st).

Lemma node_event_writes n st : node_ok n -> Z.of_nat (List.length st) <= nd_id n ->
  node_event zero n st = Ok (upd (padded n st) (Z.to_nat (nd_id n - 1)) (fresh n)).
Proof.
  intros Hok Hl. unfold node_event. replace (Z.of_nat (List.length st) <=? nd_id n) with true by lia.
  unfold add_current_node. rewrite new_stats_ok by assumption. cbn [bind].
  destruct Hok as [H1 H2]. replace (nd_id n <? 1) with false by lia.
  assert (E : (if Nat.ltb (List.length st) (Z.to_nat (nd_id n))
               then st ++ repeat no_stats (Z.to_nat (nd_id n) - List.length st) else st) = padded n st).
  { unfold padded. destruct (Nat.ltb_spec (List.length st) (Z.to_nat (nd_id n))); [reflexivity|].
    replace (_ - _)%nat with O by lia. cbn. now rewrite app_nil_r. }
  rewrite E. apply vset_ok. unfold padded. rewrite app_length, repeat_length. lia.
Qed.

Lemma node_event_skips n st : nd_id n < Z.of_nat (List.length st) -> node_event zero n st = Ok st.
Proof. intro H. unfold node_event. now replace (Z.of_nat (List.length st) <=? nd_id n) with false by lia. Qed.

Lemma padded_length n st : Z.of_nat (List.length st) <= nd_id n ->
  List.length (padded n st) = Z.to_nat (nd_id n).
Proof. intro H. unfold padded. rewrite app_length, repeat_length. lia. Qed.

Lemma padded_nth n st j s : nth_error (padded n st) j = Some s ->
  nth_error st j = Some s \/ ((List.length st <= j)%nat /\ s = no_stats).
Proof.
  unfold padded. intro H. destruct (Nat.ltb_spec j (List.length st)).
  - left. now rewrite nth_error_app1 in H.
  - right. split; [lia|]. rewrite nth_error_app2 in H by lia.
    apply nth_error_In, repeat_spec in H. exact H.
Qed.

Lemma padded_old n st j s : nth_error st j = Some s -> nth_error (padded n st) j = Some s.
Proof.
  intro H. unfold padded. rewrite nth_error_app1; [exact H|]. apply nth_error_Some. congruence.
Qed.

(** Increments. *)
Definition plus_disjoint k (s : node_stats D) : node_stats D :=
  mkNode (ns_lower s) (ns_id s) (u32 (ns_sec_disjoint s + k)) (ns_sec_maxflow s)
              (ns_cc_disjoint s) (ns_cc_shortest s) (ns_cc_steiner s) (ns_parent s) (ns_upper s).
Definition plus_maxflow k (s : node_stats D) : node_stats D :=
  mkNode (ns_lower s) (ns_id s) (ns_sec_disjoint s) (u32 (ns_sec_maxflow s + k))
              (ns_cc_disjoint s) (ns_cc_shortest s) (ns_cc_steiner s) (ns_parent s) (ns_upper s).

Lemma inc_disjoint_ok id k st : 1 <= id <= Z.of_nat (List.length st) ->
  exists s, nth_error st (Z.to_nat (id - 1)) = Some s /\
    inc_disjoint id k st = Ok (upd st (Z.to_nat (id - 1)) (plus_disjoint k s)).
Proof.
  intro H. unfold inc_disjoint. replace (id <? 1) with false by lia.
  destruct (nth_error st (Z.to_nat (id - 1))) as [s|] eqn:E.
  2:{ apply nth_error_None in E. lia. }
  exists s. split; [reflexivity|]. rewrite (vget_some _ _ _ E). cbn [bind]. apply vset_ok. lia.
Qed.
Lemma inc_maxflow_ok id k st : 1 <= id <= Z.of_nat (List.length st) ->
  exists s, nth_error st (Z.to_nat (id - 1)) = Some s /\
    inc_maxflow id k st = Ok (upd st (Z.to_nat (id - 1)) (plus_maxflow k s)).
Proof.
  intro H. unfold inc_maxflow. replace (id <? 1) with false by lia.
  destruct (nth_error st (Z.to_nat (id - 1))) as [s|] eqn:E.
  2:{ apply nth_error_None in E. lia. }
  exists s. split; [reflexivity|]. rewrite (vget_some _ _ _ E). cbn [bind]. apply vset_ok. lia.
Qed.

(** ** Events *)

Lemma max_id_nonneg es : 0 <= max_id es.
Proof. induction es as [|[] es IH]; cbn; lia. Qed.

Lemma max_id_app a b : max_id (a ++ b : list (event D)) = Z.max (max_id a) (max_id b).
Proof. induction a as [|[] a IH]; cbn; try lia. pose proof (max_id_nonneg b). lia. Qed.

Lemma scip_events_app seen a b : 0 <= seen -> scip_events seen (a ++ b : list (event D)) ->
  scip_events seen a /\ scip_events (Z.max seen (max_id a)) b.
Proof.
  revert seen. induction a as [|[n|id k|id k] a IH]; intros seen Hs H; cbn in *.
  - split; [exact I|]. now rewrite Z.max_l by lia.
  - destruct H as (H1 & H2 & H3). apply IH in H3 as [H3 H4]; [|lia]. split; [auto|].
    now rewrite Z.max_assoc.
  - destruct H as [H1 H2]. apply IH in H2 as [H2 H3]; auto.
  - destruct H as [H1 H2]. apply IH in H2 as [H2 H3]; auto.
Qed.

Lemma writes_max pre n : 1 <= nd_id n -> writes pre n <-> max_id pre <= nd_id n.
Proof.
  intro Hn. unfold writes. induction pre as [|[m|id k|id k] pre IH]; cbn.
  - split; [lia|tauto].
  - split.
    + intro H. assert (nd_id m <= nd_id n) by (apply H; now left).
      assert (max_id pre <= nd_id n) by (apply IH; intros; apply H; now right). lia.
    + intros H m' [->|Hm]; [lia|]. apply IH; [lia|exact Hm].
  - exact IH.
  - exact IH.
Qed.

Lemma disjoint_at_app id a b : disjoint_at id (a ++ b : list (event D)) = disjoint_at id a + disjoint_at id b.
Proof. induction a as [|[] a IH]; cbn; lia. Qed.
Lemma maxflow_at_app id a b : maxflow_at id (a ++ b : list (event D)) = maxflow_at id a + maxflow_at id b.
Proof. induction a as [|[] a IH]; cbn; lia. Qed.
Lemma disjoint_total_app a b : disjoint_total (a ++ b : list (event D)) = disjoint_total a + disjoint_total b.
Proof. induction a as [|[] a IH]; cbn; lia. Qed.
Lemma maxflow_total_app a b : maxflow_total (a ++ b : list (event D)) = maxflow_total a + maxflow_total b.
Proof. induction a as [|[] a IH]; cbn; lia. Qed.

(** No increments at a number not announced. *)
Lemma no_increments (a : list (event D)) seen id : 0 <= seen -> scip_events seen a -> Z.max seen (max_id a) < id ->
  disjoint_at id a = 0 /\ maxflow_at id a = 0.
Proof.
  revert seen. induction a as [|[m|id' k|id' k] a IH]; intros seen Hs Ha Hi; cbn in *.
  - auto.
  - destruct Ha as (_ & _ & Ha). apply (IH (Z.max seen (nd_id m))); [lia|exact Ha|lia].
  - destruct Ha as [H1 Ha]. pose proof (max_id_nonneg a). destruct (Z.eqb_spec id' id); [lia|].
    apply (IH seen) in Ha; [|lia|lia]. lia.
  - destruct Ha as [H1 Ha]. pose proof (max_id_nonneg a). destruct (Z.eqb_spec id' id); [lia|].
    apply (IH seen) in Ha; [|lia|lia]. lia.
Qed.

(** One event of a run. *)
Lemma handle_step pre e rest st :
  scip_events 0 (pre ++ e :: rest) -> List.length st = Z.to_nat (max_id pre) ->
  exists st', handle st e = Ok st' /\ List.length st' = Z.to_nat (max_id (pre ++ [e])) /\
  match e with
  | NodeEvent n => node_ok n /\
      ((writes pre n /\ st' = upd (padded n st) (Z.to_nat (nd_id n - 1)) (fresh n) /\ Z.of_nat (List.length st) <= nd_id n)
       \/ (~ writes pre n /\ st' = st))
  | IncDisjoint id k => 1 <= id <= Z.of_nat (List.length st) /\
      exists s, nth_error st (Z.to_nat (id - 1)) = Some s /\
        st' = upd st (Z.to_nat (id - 1)) (plus_disjoint k s)
  | IncMaxflow id k => 1 <= id <= Z.of_nat (List.length st) /\
      exists s, nth_error st (Z.to_nat (id - 1)) = Some s /\
        st' = upd st (Z.to_nat (id - 1)) (plus_maxflow k s)
  end.
Proof.
  intros He Hl. pose proof (max_id_nonneg pre) as Hp.
  apply scip_events_app in He as [_ He]; [|lia]. rewrite Z.max_r in He by lia.
  rewrite max_id_app. destruct e as [n|id k|id k]; cbn in He; cbn [max_id].
  - destruct He as (H1 & H2 & _). assert (Hok : node_ok n) by (split; assumption).
    pose proof (writes_max pre n ltac:(lia)) as Hw.
    destruct (Z.le_gt_cases (max_id pre) (nd_id n)) as [Hle|Hgt].
    + eexists. split; [apply node_event_writes; [exact Hok|lia]|].
      split. { rewrite upd_length, padded_length by lia. f_equal. lia. }
      split; [exact Hok|]. left. split; [now apply Hw|]. split; [reflexivity|lia].
    + exists st. split; [apply node_event_skips; lia|]. split; [rewrite Hl; f_equal; lia|].
      split; [exact Hok|]. right. split; [|reflexivity]. intro H. apply Hw in H. lia.
  - destruct He as [H1 _]. assert (Hr : 1 <= id <= Z.of_nat (List.length st)) by lia.
    destruct (inc_disjoint_ok id k st Hr) as (s & Hs & E). eexists. split; [exact E|].
    split. { rewrite upd_length, Hl. f_equal. lia. } split; [exact Hr|]. exists s. auto.
  - destruct He as [H1 _]. assert (Hr : 1 <= id <= Z.of_nat (List.length st)) by lia.
    destruct (inc_maxflow_ok id k st Hr) as (s & Hs & E). eexists. split; [exact E|].
    split. { rewrite upd_length, Hl. f_equal. lia. } split; [exact Hr|]. exists s. auto.
Qed.

Lemma upd_cases {A} (l : list A) i x j y : nth_error (upd l i x) j = Some y ->
  (j = i /\ y = x) \/ (j <> i /\ nth_error l j = Some y).
Proof.
  intro H. destruct (Nat.eq_dec j i) as [E|E].
  - subst j. left. split; [reflexivity|].
    assert (i < List.length l)%nat. { rewrite <- (upd_length l i x). apply nth_error_Some. congruence. }
    rewrite upd_same in H by assumption. congruence.
  - right. rewrite upd_other in H by auto. auto.
Qed.

(** What the entries hold after a part of the run.  [W pre id]: the entry [id] was written. *)
Definition inc_at pre (id : Z) (s : node_stats D) : Prop :=
  ns_sec_disjoint s = u32 (disjoint_at id pre) /\ ns_sec_maxflow s = u32 (maxflow_at id pre).

Lemma sum_upd f st i s x : nth_error st i = Some s ->
  sum_by f (upd st i x) = sum_by f st - f s + f x.
Proof.
  revert i. induction st as [|a st IH]; intros [|i] H; cbn in *; try discriminate.
  - inversion H; subst. lia.
  - rewrite (IH i H). lia.
Qed.

Lemma sum_app f (a b : list (node_stats D)) : sum_by f (a ++ b) = sum_by f a + sum_by f b.
Proof. induction a; cbn; lia. Qed.
Lemma sum_repeat f k : f no_stats = 0 -> sum_by f (repeat no_stats k) = 0.
Proof. intro H. induction k; cbn; lia. Qed.

Lemma u32_cong a b : a mod 4294967296 = b mod 4294967296 -> u32 a = u32 b.
Proof. auto. Qed.

Lemma u32_sum_inc a x k t : u32 a = u32 t -> u32 (a - x + u32 (x + k)) = u32 (t + k).
Proof.
  intro H. unfold u32 in *. rewrite Zplus_mod_idemp_r. replace (a - x + (x + k)) with (a + k) by lia.
  rewrite <- Zplus_mod_idemp_l, H. apply Zplus_mod_idemp_l.
Qed.

Theorem run_kept es : scip_events 0 es -> never_rewritten es ->
  exists st, run_events zero es = Ok st /\ List.length st = Z.to_nat (max_id es) /\
  (forall i s, nth_error st i = Some s -> inc_at es (Z.of_nat i + 1) s) /\
  u32 (sum_by ns_sec_disjoint st) = u32 (disjoint_total es) /\
  u32 (sum_by ns_sec_maxflow st) = u32 (maxflow_total es).
Proof.
  intros He Hn. unfold run_events.
  apply (foldM_inv handle (fun pre st => List.length st = Z.to_nat (max_id pre) /\
    (forall i s, nth_error st i = Some s -> inc_at pre (Z.of_nat i + 1) s) /\
    u32 (sum_by ns_sec_disjoint st) = u32 (disjoint_total pre) /\
    u32 (sum_by ns_sec_maxflow st) = u32 (maxflow_total pre))).
  { split; [reflexivity|]. split; [|split; reflexivity]. intros [|i] s H; discriminate. }
  intros pre e rest st Hes (Hl & Hent & Hd & Hf). subst es.
  destruct (handle_step pre e rest st He Hl) as (st' & E & Hl' & Hc).
  exists st'. split; [exact E|]. split; [exact Hl'|].
  destruct e as [n|id k|id k].
  - rewrite disjoint_total_app, maxflow_total_app. cbn [disjoint_total maxflow_total]. rewrite !Z.add_0_r.
    assert (Same : forall id s, inc_at pre id s -> inc_at (pre ++ [NodeEvent n]) id s).
    { intros id s [H1 H2]. split; [rewrite disjoint_at_app|rewrite maxflow_at_app]; cbn; now rewrite Z.add_0_r. }
    destruct Hc as [Hok [(Hw & -> & Hlen)|(_ & ->)]].
    2:{ split; [|split; assumption]. intros i s H. apply Same. now apply Hent. }
    destruct (Hn pre n rest eq_refl Hw) as [Z1 Z2].
    assert (Hin : forall s, nth_error (padded n st) (Z.to_nat (nd_id n - 1)) = Some s ->
              ns_sec_disjoint s = 0 /\ ns_sec_maxflow s = 0).
    { intros s Hs. apply padded_nth in Hs as [Hs|[_ ->]]; [|split; reflexivity].
      apply Hent in Hs as [H1 H2]. destruct Hok as [Hok _].
      replace (Z.of_nat (Z.to_nat (nd_id n - 1)) + 1) with (nd_id n) in * by lia.
      rewrite Z1 in H1. rewrite Z2 in H2. split; [exact H1|exact H2]. }
    destruct (nth_error (padded n st) (Z.to_nat (nd_id n - 1))) as [s0|] eqn:Es.
    2:{ apply nth_error_None in Es. rewrite padded_length in Es by lia. destruct Hok. lia. }
    destruct (Hin s0 eq_refl) as [Z3 Z4].
    split; [|split].
    + intros i s H. apply Same. apply upd_cases in H as [[-> ->]|[_ H]].
      * unfold inc_at. destruct Hok as [Hok _].
        replace (Z.of_nat (Z.to_nat (nd_id n - 1)) + 1) with (nd_id n) by lia. rewrite Z1, Z2. split; reflexivity.
      * apply padded_nth in H as [H|[Hge ->]]; [now apply Hent|].
        apply scip_events_app in He as [He _]; [|lia]. pose proof (max_id_nonneg pre).
        destruct (no_increments pre 0 (Z.of_nat i + 1)) as [Q1 Q2]; [lia|exact He|lia|].
        unfold inc_at. rewrite Q1, Q2. split; reflexivity.
    + rewrite (sum_upd _ _ _ s0) by assumption. unfold padded. rewrite sum_app, sum_repeat by reflexivity.
      cbn [ns_sec_disjoint fresh]. rewrite Z3, <- Hd. f_equal. lia.
    + rewrite (sum_upd _ _ _ s0) by assumption. unfold padded. rewrite sum_app, sum_repeat by reflexivity.
      cbn [ns_sec_maxflow fresh]. rewrite Z4, <- Hf. f_equal. lia.
  - destruct Hc as (Hr & s0 & Hs0 & ->). rewrite disjoint_total_app, maxflow_total_app.
    cbn [disjoint_total maxflow_total]. rewrite !Z.add_0_r. split; [|split].
    + intros i s H. apply upd_cases in H as [[-> ->]|[Hne H]].
      * apply Hent in Hs0 as [H1 H2]. replace (Z.of_nat (Z.to_nat (id - 1)) + 1) with id in * by lia.
        unfold inc_at. rewrite disjoint_at_app, maxflow_at_app. cbn. rewrite Z.eqb_refl, !Z.add_0_r.
        split; [rewrite H1; apply u32_add|exact H2].
      * apply Hent in H as [H1 H2]. unfold inc_at. rewrite disjoint_at_app, maxflow_at_app. cbn.
        destruct (Z.eqb_spec id (Z.of_nat i + 1)); [lia|]. rewrite !Z.add_0_r. auto.
    + rewrite (sum_upd _ _ _ s0) by assumption. cbn [ns_sec_disjoint plus_disjoint]. now apply u32_sum_inc.
    + rewrite (sum_upd _ _ _ s0) by assumption. cbn [ns_sec_maxflow plus_disjoint]. rewrite <- Hf. f_equal. lia.
  - destruct Hc as (Hr & s0 & Hs0 & ->). rewrite disjoint_total_app, maxflow_total_app.
    cbn [disjoint_total maxflow_total]. rewrite !Z.add_0_r. split; [|split].
    + intros i s H. apply upd_cases in H as [[-> ->]|[Hne H]].
      * apply Hent in Hs0 as [H1 H2]. replace (Z.of_nat (Z.to_nat (id - 1)) + 1) with id in * by lia.
        unfold inc_at. rewrite disjoint_at_app, maxflow_at_app. cbn. rewrite Z.eqb_refl, !Z.add_0_r.
        split; [exact H1|rewrite H2; apply u32_add].
      * apply Hent in H as [H1 H2]. unfold inc_at. rewrite disjoint_at_app, maxflow_at_app. cbn.
        destruct (Z.eqb_spec id (Z.of_nat i + 1)); [lia|]. rewrite !Z.add_0_r. auto.
    + rewrite (sum_upd _ _ _ s0) by assumption. cbn [ns_sec_disjoint plus_maxflow]. rewrite <- Hd. f_equal. lia.
    + rewrite (sum_upd _ _ _ s0) by assumption. cbn [ns_sec_maxflow plus_maxflow]. now apply u32_sum_inc.
Qed.

(** Every run succeeds. *)
Theorem run_ok es : scip_events 0 es ->
  exists st, run_events zero es = Ok st /\ List.length st = Z.to_nat (max_id es).
Proof.
  intro He. unfold run_events.
  apply (foldM_inv handle (fun pre st => List.length st = Z.to_nat (max_id pre))); [reflexivity|].
  intros pre e rest st Hes Hl. subst es. destruct (handle_step pre e rest st He Hl) as (st' & E & Hl' & _).
  exists st'. auto.
Qed.

(** The entry [j] after the part [post] of a run that does not write it again. *)
Definition with_counts (s : node_stats D) post (id : Z) : node_stats D :=
  mkNode (ns_lower s) (ns_id s) (u32 (ns_sec_disjoint s + disjoint_at id post))
    (u32 (ns_sec_maxflow s + maxflow_at id post))
    (ns_cc_disjoint s) (ns_cc_shortest s) (ns_cc_steiner s) (ns_parent s) (ns_upper s).

Lemma run_unwritten pre post st s (id : Z) : 1 <= id ->
  scip_events 0 (pre ++ post) -> List.length st = Z.to_nat (max_id pre) ->
  nth_error st (Z.to_nat (id - 1)) = Some s ->
  ns_sec_disjoint s = u32 (ns_sec_disjoint s) -> ns_sec_maxflow s = u32 (ns_sec_maxflow s) ->
  (forall post1 m post2, post = post1 ++ NodeEvent m :: post2 -> nd_id m = id -> ~ writes (pre ++ post1) m) ->
  exists st', foldM handle post st = Ok st' /\ List.length st' = Z.to_nat (max_id (pre ++ post)) /\
    nth_error st' (Z.to_nat (id - 1)) = Some (with_counts s post id).
Proof.
  intros Hid He Hl Hs U1 U2 Hn.
  apply (foldM_inv handle (fun done st' => List.length st' = Z.to_nat (max_id (pre ++ done)) /\
    nth_error st' (Z.to_nat (id - 1)) = Some (with_counts s done id))).
  { rewrite app_nil_r. split; [exact Hl|]. rewrite Hs. unfold with_counts. cbn.
    rewrite !Z.add_0_r, <- U1, <- U2. now destruct s. }
  intros done e rest st1 Hp (Hl1 & Hs1). subst post.
  assert (He1 : scip_events 0 ((pre ++ done) ++ e :: rest)) by now rewrite <- app_assoc.
  destruct (handle_step (pre ++ done) e rest st1 He1 Hl1) as (st' & E & Hl' & Hc).
  exists st'. split; [exact E|]. rewrite <- app_assoc in Hl'. split; [exact Hl'|].
  unfold with_counts. rewrite disjoint_at_app, maxflow_at_app.
  destruct e as [n|id' k|id' k]; cbn [disjoint_at maxflow_at].
  - rewrite !Z.add_0_r. destruct Hc as [Hok [(Hw & -> & Hlen)|(_ & ->)]]; [|exact Hs1].
    assert (Hne : nd_id n <> id) by (intro Eq; exact (Hn done n rest eq_refl Eq Hw)).
    rewrite upd_other by (destruct Hok; lia). now apply padded_old.
  - destruct Hc as (Hr & s0 & Hs0 & ->). rewrite !Z.add_0_r. destruct (Z.eqb_spec id' id) as [Eq|Ne].
    + subst id'. rewrite Hs1 in Hs0. injection Hs0 as <-. rewrite upd_same by (apply nth_error_Some; congruence).
      unfold plus_disjoint, with_counts. cbn. rewrite u32_add. f_equal. f_equal. f_equal. lia.
    + rewrite upd_other by lia. rewrite Z.add_0_r. exact Hs1.
  - destruct Hc as (Hr & s0 & Hs0 & ->). rewrite !Z.add_0_r. destruct (Z.eqb_spec id' id) as [Eq|Ne].
    + subst id'. rewrite Hs1 in Hs0. injection Hs0 as <-. rewrite upd_same by (apply nth_error_Some; congruence).
      unfold plus_maxflow, with_counts. cbn. rewrite u32_add. f_equal. f_equal. f_equal. lia.
    + rewrite upd_other by lia. rewrite Z.add_0_r. exact Hs1.
Qed.

Theorem run_last_write pre n post : scip_events 0 (pre ++ NodeEvent n :: post) -> writes pre n ->
  (forall post1 m post2, post = post1 ++ NodeEvent m :: post2 -> nd_id m = nd_id n ->
     ~ writes (pre ++ NodeEvent n :: post1) m) ->
  exists st s, run_events zero (pre ++ NodeEvent n :: post) = Ok st /\
    nth_error st (Z.to_nat (nd_id n - 1)) = Some s /\
    entry_of n (u32 (disjoint_at (nd_id n) post)) (u32 (maxflow_at (nd_id n) post)) s.
Proof.
  intros He Hw Hn. unfold run_events. rewrite foldM_app.
  destruct (run_ok pre) as (st0 & E0 & Hl0). { now apply scip_events_app in He. }
  unfold run_events in E0. rewrite E0. cbn [bind foldM].
  destruct (handle_step pre (NodeEvent n) post st0 He Hl0) as (st1 & E1 & Hl1 & Hok & Hc).
  rewrite E1. cbn [bind]. destruct Hc as [(_ & -> & Hlen)|(C & _)]; [|contradiction].
  pose proof Hok as [Hid _].
  destruct (run_unwritten (pre ++ [NodeEvent n]) post _ (fresh n) (nd_id n) ltac:(lia)
              ltac:(now rewrite <- app_assoc) Hl1) as (st & E & _ & Hs); auto.
  - rewrite upd_same; [reflexivity|]. rewrite padded_length by lia. lia.
  - intros post1 m post2 Hp Hm. rewrite <- app_assoc. exact (Hn post1 m post2 Hp Hm).
  - exists st, (with_counts (fresh n) post (nd_id n)). split; [exact E|]. split; [exact Hs|].
    unfold entry_of, with_counts, fresh. cbn. repeat split.
    + intros ->. reflexivity.
    + intros H1 p Hp Hr. rewrite Hp. replace (1 <? nd_id n) with true by lia. now apply u32_small.
Qed.

Theorem run_never_written es (id : Z) : scip_events 0 es -> 1 <= id <= max_id es ->
  (forall pre n post, es = pre ++ NodeEvent n :: post -> nd_id n = id -> ~ writes pre n) ->
  exists st s, run_events zero es = Ok st /\ nth_error st (Z.to_nat (id - 1)) = Some s /\
    ns_lower s = zero /\ ns_upper s = zero /\ ns_id s = 0 /\ ns_parent s = 0 /\
    ns_sec_disjoint s = u32 (disjoint_at id es) /\ ns_sec_maxflow s = u32 (maxflow_at id es).
Proof.
  intros He Hid Hn. unfold run_events.
  (* the event that makes the vector long enough *)
  assert (S : forall es, id <= max_id es -> exists pre n post, es = pre ++ NodeEvent n :: post /\
             max_id pre < id /\ id <= nd_id n).
  { assert (Hid1 : 1 <= id) by lia. clear - Hid1. induction es as [|e es IH]; cbn; intro H; [lia|].
    destruct e as [n|i k|i k].
    - destruct (Z.le_gt_cases id (nd_id n)) as [L|L].
      + exists [], n, es. split; [reflexivity|]. cbn. lia.
      + destruct IH as (pre & n' & post & -> & H1 & H2); [lia|].
        exists (NodeEvent n :: pre), n', post. split; [reflexivity|]. cbn. lia.
    - destruct IH as (pre & n' & post & -> & H1 & H2); [lia|].
      exists (IncDisjoint i k :: pre), n', post. split; [reflexivity|]. cbn. lia.
    - destruct IH as (pre & n' & post & -> & H1 & H2); [lia|].
      exists (IncMaxflow i k :: pre), n', post. split; [reflexivity|]. cbn. lia. }
  destruct (S es) as (pre & n & post & -> & H1 & H2); [lia|].
  rewrite foldM_app. destruct (run_ok pre) as (st0 & E0 & Hl0). { now apply scip_events_app in He. }
  unfold run_events in E0. rewrite E0. cbn [bind foldM].
  destruct (handle_step pre (NodeEvent n) post st0 He Hl0) as (st1 & E1 & Hl1 & Hok & Hc).
  rewrite E1. cbn [bind]. pose proof (max_id_nonneg pre).
  assert (Hw : writes pre n) by (apply writes_max; lia).
  destruct Hc as [(_ & -> & Hlen)|(C & _)]; [|contradiction].
  assert (Hne : nd_id n <> id) by (intro Eq; exact (Hn pre n post eq_refl Eq Hw)).
  destruct (run_unwritten (pre ++ [NodeEvent n]) post _ no_stats id ltac:(lia)
              ltac:(now rewrite <- app_assoc) Hl1) as (st & E & _ & Hs); auto.
  - destruct Hok as [Hok _]. rewrite upd_other by lia. unfold padded.
    rewrite nth_error_app2 by lia. apply nth_error_repeat. lia.
  - intros post1 m post2 Hp Hm. rewrite <- app_assoc. cbn. subst post.
    apply (Hn (pre ++ NodeEvent n :: post1) m post2); [|exact Hm]. now rewrite <- app_assoc.
  - exists st, (with_counts no_stats post id). split; [exact E|]. split; [exact Hs|].
    apply scip_events_app in He as [He _]; [|lia].
    destruct (no_increments pre 0 id) as [Q1 Q2]; [lia|exact He|lia|].
    rewrite disjoint_at_app, maxflow_at_app, Q1, Q2. cbn. repeat split.
Qed.

(** ** Bounds *)

Lemma run_bounds_app t0 (a : list (lp_event D)) e : run_bounds t0 (a ++ [e]) = bounds_event (run_bounds t0 a) e.
Proof. unfold run_bounds. now rewrite fold_left_app. Qed.

Lemma run_bounds_spec t0 (es : list (lp_event D)) :
  List.length (snd (run_bounds t0 es)) = List.length es /\
  fst (run_bounds t0 es) = last (map lp_now2 es) t0 /\
  (forall i e, nth_error es i = Some e -> exists b, nth_error (snd (run_bounds t0 es)) i = Some b /\
     b_start b = last (map lp_now2 (firstn i es)) t0 /\ b_end b = lp_now1 e /\
     b_lower b = lp_lower e /\ b_upper b = lp_upper e /\ b_node b = u32 (lp_node e)).
Proof.
  induction es as [|e es (IH1 & IH2 & IH3)] using rev_ind.
  - split; [reflexivity|]. split; [reflexivity|]. intros [|i] e H; discriminate.
  - rewrite run_bounds_app. cbn. split; [rewrite !app_length; cbn; lia|].
    split. { rewrite map_app. cbn. now rewrite last_last. }
    intros i a H. destruct (Nat.ltb_spec i (List.length es)) as [Hi|Hi].
    + rewrite nth_error_app1 in H by lia. destruct (IH3 i a H) as (b & Hb & R).
      exists b. rewrite nth_error_app1 by lia. rewrite firstn_app.
      replace (i - List.length es)%nat with O by lia. cbn. rewrite app_nil_r. auto.
    + assert (i = List.length es). { assert (i < List.length (es ++ [e]))%nat by (apply nth_error_Some; congruence).
        rewrite app_length in *. cbn in *. lia. }
      subst i. rewrite nth_error_app2, Nat.sub_diag in H by lia. injection H as <-.
      eexists. split. { rewrite nth_error_app2 by lia. rewrite IH1, Nat.sub_diag. reflexivity. }
      cbn. rewrite firstn_app, Nat.sub_diag, firstn_all. cbn. rewrite app_nil_r. auto.
Qed.

Lemma last_now2 (es : list (lp_event D)) i e t0 : nth_error es i = Some e ->
  last (map lp_now2 (firstn (S i) es)) t0 = lp_now2 e.
Proof.
  revert i t0. induction es as [|a es IH]; intros [|i] t0 H; try discriminate.
  - injection H as ->. reflexivity.
  - specialize (IH i t0 H). change (firstn (S (S i)) (a :: es)) with (a :: firstn (S i) es).
    rewrite map_cons. destruct es as [|b es]; [destruct i; discriminate|].
    cbn [firstn map] in *. exact IH.
Qed.

(** Positions of the clock readings. *)
Lemma readings_nth t0 (es : list (lp_event D)) i e : nth_error es i = Some e ->
  nth_error (readings t0 es) (2 * i + 1) = Some (lp_now1 e) /\
  nth_error (readings t0 es) (2 * i + 2) = Some (lp_now2 e).
Proof.
  unfold readings. replace (2 * i + 2)%nat with (S (S (2 * i))) by lia.
  replace (2 * i + 1)%nat with (S (2 * i)) by lia. cbn [nth_error].
  revert i. induction es as [|a es IH]; intros [|i] H; try discriminate.
  - injection H as ->. split; reflexivity.
  - replace (2 * S i)%nat with (S (S (2 * i))) by lia. cbn. apply IH in H as [H1 H2].
    cbn [nth_error] in *. destruct es; [destruct i; discriminate|]. split; [exact H1|exact H2].
Qed.
End E.

(** A check for examples. *)
Fixpoint sortedb (l : list Z) : bool :=
  match l with
  | [] => true
  | a :: l => andb (forallb (fun b => a <=? b) l) (sortedb l)
  end.
Lemma sortedb_spec l : sortedb l = true -> monotone l.
Proof.
  induction l as [|x l IH]; cbn; intro H; intros i j a b Hij Ha Hb.
  - destruct i; discriminate.
  - apply andb_true_iff in H as [H1 H2]. rewrite forallb_forall in H1.
    destruct i as [|i], j as [|j]; cbn in Ha, Hb; try lia.
    + injection Ha as <-. injection Hb as <-. lia.
    + injection Ha as <-. apply nth_error_In in Hb. specialize (H1 b Hb). lia.
    + apply (IH H2 i j a b); [lia|assumption|assumption].
Qed.
