(** * P_DFS: depthFirstSearch *)
From Verif Require Import Base Graph Spec M_Graph P_Base P_BFS.
Open Scope nat_scope.

Lemma count_false_zero m v : count_false m = 0 -> v < length m -> is_true_at m v.
Proof.
  unfold count_false, is_true_at. revert v. induction m as [|b m IH]; intros v H Hv; [simpl in Hv; lia|].
  destruct b; cbn in H; [|discriminate]. destruct v; [reflexivity|]. apply IH; auto. simpl in Hv. lia.
Qed.

Lemma within_prepend g (ok : nat -> Prop) s v d w : is_edge g s v -> ok v -> within g ok v d w -> within g ok s (S d) w.
Proof.
  intros He Hv H. induction H as [|d u w Hw IH He' Hok].
  - eapply within_S; eauto. constructor.
  - eapply within_S; eauto.
Qed.

Lemma within_sub g (ok1 ok2 : nat -> Prop) s d v : (forall x, ok1 x -> ok2 x) -> within g ok1 s d v -> within g ok2 s d v.
Proof. intros H. induction 1; [constructor|]. econstructor; eauto. Qed.

Lemma true_or_false m v : v < length m -> is_true_at m v \/ is_false_at m v.
Proof.
  intros H. unfold is_true_at, is_false_at. destruct (nth_error m v) as [[|]|] eqn:E; auto.
  apply nth_error_None in E. lia.
Qed.

Lemma not_both m v : is_true_at m v -> is_false_at m v -> False.
Proof. unfold is_true_at, is_false_at. congruence. Qed.

Lemma true_upd m s v : s < length m -> (is_true_at (upd m s true) v <-> v = s \/ is_true_at m v).
Proof.
  intros H. unfold is_true_at. rewrite upd_nth by lia. destruct (Nat.eqb_spec s v) as [->|Hne].
  - split; auto.
  - split; auto. intros [->|]; congruence.
Qed.

Lemma false_upd m s v : s < length m -> (is_false_at (upd m s true) v <-> v <> s /\ is_false_at m v).
Proof.
  intros H. unfold is_false_at. rewrite upd_nth by lia. destruct (Nat.eqb_spec s v) as [->|Hne].
  - split; [discriminate|]. intros []. congruence.
  - split; auto. tauto.
Qed.

Section DFS.
Context (g : graph) (Hg : graph_ok g).

Definition dfs_post (limit src : nat) (m : list bool) (p : list nat) (m' : list bool) (p' : list nat) : Prop :=
  length m' = gn g /\ length p' = gn g /\
  (forall v, is_true_at m v -> is_true_at m' v) /\ is_true_at m' src /\
  (forall v, is_true_at m' v -> is_true_at m v \/ exists d, d <= limit /\ within g (is_false_at m) src d v) /\
  (count_false (upd m src true) <= limit ->
     forall v, is_true_at m' v -> v = src \/ is_false_at m v -> forall w, is_edge g v w -> is_true_at m' w) /\
  (forall v, is_true_at m v \/ v = src -> nth_error p' v = nth_error p v) /\
  (forall v, is_true_at m' v -> is_false_at m v -> v <> src ->
     exists u d, nth_error p' v = Some u /\ is_edge g u v /\ (u = src \/ is_true_at m' u /\ is_false_at m u) /\
       S d <= limit /\ within g (is_false_at m) src d u) /\
  count_false m' <= count_false (upd m src true).

Lemma count_mono m : forall m', length m' = length m -> (forall v, is_true_at m v -> is_true_at m' v) ->
  count_false m' <= count_false m.
Proof.
  unfold count_false, is_true_at. induction m as [|b m IH]; intros [|b' m'] Hl H; cbn [length] in Hl; try lia; auto.
  assert (Hle : length (filter negb m') <= length (filter negb m)).
  { apply IH; [lia|]. intros v Hv. exact (H (S v) Hv). }
  destruct b; cbn [filter negb].
  - specialize (H 0 eq_refl). cbn in H. inversion H; subst b'. exact Hle.
  - destruct b'; cbn [filter negb length]; lia.
Qed.

Lemma dfs_ok : forall limit src m p, length m = gn g -> length p = gn g -> src < gn g ->
  exists m' p', depth_first_search g limit src (m, p) = Ok (m', p') /\ dfs_post limit src m p m' p'.
Proof.
  induction limit as [|limit IH]; intros src m p Hm Hp Hs; cbn [depth_first_search fst snd];
    rewrite vset_ok by lia; cbn [bind].
  - exists (upd m src true), p. split; [reflexivity|]. split; [now rewrite upd_length|]. split; [auto|].
    split; [intros v Hv; apply true_upd; [lia|auto]|].
    split; [apply true_upd; [lia|auto]|].
    split.
    { intros v Hv. apply true_upd in Hv as [->|Hv]; [|auto|lia]. right. exists 0. split; [lia|constructor]. }
    split.
    { intros H0 v Hv _ w Hw. apply count_false_zero; [lia|]. rewrite upd_length, Hm.
      now apply (is_edge_range g v w Hg Hw). }
    split; [auto|]. split; [|lia].
    intros v Hv Hf Hne. apply true_upd in Hv as [->|Hv]; [congruence| |lia]. destruct (not_both _ _ Hv Hf).
  - rewrite adjacent_ok by lia. cbn [bind]. set (m1 := upd m src true).
    assert (Hm1 : length m1 = gn g) by (unfold m1; now rewrite upd_length).
    pose (Inv := fun (done : list nat) (st : list bool * list nat) =>
      let (mc, pc) := st in
      length mc = gn g /\ length pc = gn g /\
      (forall v, is_true_at m1 v -> is_true_at mc v) /\
      (forall v, is_true_at mc v -> is_true_at m v \/ exists d, d <= S limit /\ within g (is_false_at m) src d v) /\
      (count_false m1 <= S limit ->
         (forall v, is_true_at mc v -> is_false_at m1 v -> forall w, is_edge g v w -> is_true_at mc w) /\
         (forall v, In v done -> is_true_at mc v)) /\
      (forall v, is_true_at m v \/ v = src -> nth_error pc v = nth_error p v) /\
      (forall v, is_true_at mc v -> is_false_at m v -> v <> src ->
         exists u d, nth_error pc v = Some u /\ is_edge g u v /\ (u = src \/ is_true_at mc u /\ is_false_at m u) /\
           S d <= S limit /\ within g (is_false_at m) src d u)).
    match goal with |- exists m' p', foldM ?f _ _ = _ /\ _ =>
      destruct (foldM_inv f Inv (nbrs g src) (m1, p)) as ([m' p'] & E & HI) end.
    + cbn. split; [auto|]. split; [auto|]. split; [auto|]. split.
      { intros v Hv. apply true_upd in Hv as [->|Hv]; [|auto|lia]. right. exists 0. split; [lia|constructor]. }
      split.
      { intros _. split; [|intros v []]. intros v H1 H2. destruct (not_both _ _ H1 H2). }
      split; [auto|]. intros v Hv Hf Hne. apply true_upd in Hv as [->|Hv]; [congruence| |lia].
      destruct (not_both _ _ Hv Hf).
    + intros done v rest [mc pc] En (I1 & I2 & I3 & I4 & I5 & I6 & I7). cbn [fst snd].
      assert (Hsv : is_edge g src v) by (apply nbrs_In; rewrite En; apply in_app_iff; right; now left).
      pose proof (is_edge_range g src v Hg Hsv) as [_ Hv].
      destruct (vget_ok mc v) as (b & Eb & Enb); [lia|]. rewrite Eb. cbn [bind]. destruct b.
      { exists (mc, pc). split; [reflexivity|]. cbn. repeat (split; [assumption|]). split; [|auto].
        intros Hc. destruct (I5 Hc) as [J1 J2]. split; auto. intros x Hx.
        apply in_app_iff in Hx as [Hx|[<-|[]]]; auto. }
      rewrite vset_ok by lia. cbn [bind].
      assert (Hvm : is_false_at m v).
      { destruct (true_or_false m v) as [H|H]; [lia| |auto]. exfalso.
        assert (is_true_at mc v) by (apply I3; apply true_upd; [lia|auto]).
        eapply not_both; [eassumption|exact Enb]. }
      assert (Hvs : v <> src).
      { intros ->. assert (is_true_at mc src) by (apply I3; apply true_upd; [lia|auto]).
        eapply not_both; [eassumption|exact Enb]. }
      assert (Hsub : forall x, is_false_at mc x -> is_false_at m x).
      { intros x Hx. destruct (true_or_false m x) as [H|H]; [|  |auto].
        { rewrite Hm, <- I1. eapply nth_error_Some_lt. exact Hx. }
        exfalso. eapply not_both; [|exact Hx]. apply I3. apply true_upd; [lia|auto]. }
      destruct (IH v mc (upd pc v src)) as (m2 & p2 & E2 & Q1 & Q2 & Q3 & Q4 & Q5 & Q6 & Q7 & Q8 & Q9);
        [auto|now rewrite upd_length|auto|].
      rewrite E2. exists (m2, p2). split; [reflexivity|]. cbn.
      split; [auto|]. split; [auto|]. split; [auto|]. split.
      { intros x Hx. destruct (Q5 x Hx) as [H|(d & Hd & Hw)]; [auto|]. right. exists (S d). split; [lia|].
        apply within_prepend with (v := v); auto. eapply within_sub; [exact Hsub|exact Hw]. }
      split.
      { intros Hc. destruct (I5 Hc) as [J1 J2].
        assert (Hcnt : count_false (upd mc v true) <= limit).
        { pose proof (count_false_upd mc v Enb). pose proof (count_mono m1 mc ltac:(lia) I3). lia. }
        split.
        - intros x Hx Hfx w Hw. destruct (true_or_false mc x) as [H|H].
          + rewrite I1, <- Hm1. eapply nth_error_Some_lt. exact Hfx.
          + apply Q3. eapply J1; eauto.
          + apply (Q6 Hcnt x Hx); auto.
        - intros x Hx. apply in_app_iff in Hx as [Hx|[<-|[]]]; auto. }
      split.
      { intros x Hx. rewrite Q7.
        - rewrite upd_nth by lia. destruct (Nat.eqb_spec v x) as [->|Hne]; [|now apply I6].
          exfalso. destruct Hx as [Hx|Hx]; [eapply not_both; eauto|congruence].
        - left. apply I3. apply true_upd; [lia|]. tauto. }
      intros x Hx Hfx Hne. destruct (true_or_false mc x) as [H|H].
      * rewrite I1, <- Hm. eapply nth_error_Some_lt. exact Hfx.
      * destruct (I7 x H Hfx Hne) as (u & d & K1 & K2 & K3 & K4 & K5). exists u, d.
        split; [|split; [auto|split; [|auto]]].
        -- rewrite Q7 by auto. rewrite upd_nth by lia. destruct (Nat.eqb_spec v x) as [->|]; auto.
           destruct (not_both _ _ H Enb).
        -- destruct K3 as [->|[K3 K3']]; auto.
      * destruct (Nat.eq_dec x v) as [->|Hxv].
        -- exists src, 0. split; [|split; [auto|split; [auto|split; [lia|constructor]]]].
           rewrite Q7 by auto. rewrite upd_nth by lia. now rewrite Nat.eqb_refl.
        -- destruct (Q8 x Hx H Hxv) as (u & d & K1 & K2 & K3 & K4 & K5). exists u, (S d).
           split; [auto|]. split; [auto|]. split.
           ++ right. destruct K3 as [->|[K3 K3']]; auto.
           ++ split; [lia|]. apply within_prepend with (v := v); auto. eapply within_sub; [exact Hsub|exact K5].
    + exists m', p'. split; [exact E|]. destruct HI as (I1 & I2 & I3 & I4 & I5 & I6 & I7).
      split; [auto|]. split; [auto|]. split; [intros v Hv; apply I3; apply true_upd; [lia|auto]|].
      split; [apply I3; apply true_upd; [lia|auto]|]. split; [auto|]. split.
      { intros Hc v Hv Hor w Hw. destruct (I5 Hc) as [J1 J2]. destruct (Nat.eq_dec v src) as [->|Hne].
        - apply J2. now apply nbrs_In.
        - eapply J1; eauto. apply false_upd; [lia|]. destruct Hor; [congruence|auto]. }
      split; [auto|]. split; [auto|]. apply (count_mono m1); [lia|]. exact I3.
Qed.

(** What the search gives the caller. *)
Lemma dfs_spec s m0 p0 limit : length m0 = gn g -> length p0 = gn g -> s < gn g ->
  let free v := nth_error m0 v = Some false in
  exists m p, depth_first_search g limit s (m0, p0) = Ok (m, p) /\
    (forall v, nth_error m v = Some true -> nth_error m0 v = Some true \/
       exists d, d <= limit /\ within g free s d v) /\
    (forall v, nth_error m0 v = Some true \/ v = s -> nth_error m v = Some true /\ nth_error p v = nth_error p0 v) /\
    (gn g <= S limit -> forall d v, within g free s d v -> nth_error m v = Some true) /\
    (forall v, nth_error m v = Some true -> free v -> v <> s ->
       exists u, nth_error p v = Some u /\ is_edge g u v /\ (u = s \/ nth_error m u = Some true /\ free u)).
Proof.
  intros Hm Hp Hs free. destruct (dfs_ok limit s m0 p0 Hm Hp Hs) as (m & p & E & Q1 & Q2 & Q3 & Q4 & Q5 & Q6 & Q7 & Q8 & Q9).
  exists m, p. split; [exact E|]. split; [exact Q5|]. split.
  { intros v Hv. split; [|now apply Q7]. destruct Hv as [Hv| ->]; [now apply Q3|exact Q4]. }
  split.
  - intros Hl d v Hw.
    assert (Hc : count_false (upd m0 s true) <= limit).
    { destruct (true_or_false m0 s) as [H|H]; [lia| |].
      - assert (Hnz : count_false (upd m0 s true) < length (upd m0 s true)).
        { assert (Hts : is_true_at (upd m0 s true) s) by (apply true_upd; [lia|auto]).
          revert Hts. clear. generalize (upd m0 s true) as l. intros l. unfold is_true_at, count_false.
          revert s. induction l as [|b l IH]; intros s H; [destruct s; discriminate|].
          destruct s as [|s]; cbn [nth_error] in H.
          - inversion H; subst. cbn [filter negb length]. pose proof (count_false_le l) as Hx. unfold count_false in Hx. lia.
          - specialize (IH s H). destruct b; cbn [filter negb length]; lia. }
        rewrite upd_length in Hnz. lia.
      - pose proof (count_false_upd m0 s H). pose proof (count_false_le m0). lia. }
    induction Hw as [|d u v Hw IHw He Hv]; [exact Q4|].
    apply (Q6 Hc u IHw); auto. inversion Hw; auto.
  - intros v Hv Hf Hne. destruct (Q8 v Hv Hf Hne) as (u & d & K1 & K2 & K3 & _). exists u. auto.
Qed.
End DFS.
