(** * P_BFS: breadthFirstSearch marks exactly what it should, its parents are paths. *)
From Verif Require Import Base Graph Spec M_Graph P_Base.
Open Scope nat_scope.

Definition is_true_at (m : list bool) (v : nat) : Prop := nth_error m v = Some true.
Definition is_false_at (m : list bool) (v : nat) : Prop := nth_error m v = Some false.

Definition count_false (m : list bool) : nat := length (filter negb m).

Lemma count_false_upd m v : nth_error m v = Some false ->
  S (count_false (upd m v true)) = count_false m.
Proof.
  unfold count_false. revert v; induction m as [|b t IH]; intros [|v]; simpl; intros H; try discriminate.
  - inversion H; subst. simpl. auto.
  - specialize (IH v H). destruct (negb b); simpl; lia.
Qed.

Lemma count_false_le m : count_false m <= length m.
Proof. unfold count_false. induction m as [|b t IH]; simpl; auto. destruct (negb b); simpl; lia. Qed.

Section BFS.
Context (g : graph) (m0 : list bool) (s : nat).
Context (Hg : graph_ok g) (Hm0 : length m0 = gn g) (Hs : s < gn g).

Let ok (v : nat) : Prop := is_false_at m0 v.

Lemma within_range d v : within g ok s d v -> v < gn g.
Proof.
  destruct 1 as [|d u v Hw He Ho]; auto. unfold ok in Ho. rewrite <- Hm0.
  eapply nth_error_Some_lt; eauto.
Qed.

Lemma within_src_or_ok d v : within g ok s d v -> v = s \/ ok v.
Proof. destruct 1; auto. Qed.

(** every reachable vertex has a distance, at most the given length *)
Lemma within_dist d v : within g ok s d v -> ~ ~ exists d', d' <= d /\ dist g ok s d' v.
Proof.
  induction d as [d IH] using lt_wf_ind. intros Hw Hn. apply Hn.
  exists d. split; [lia|]. split; [auto|]. intros d' Hd' Hw'.
  apply (IH d' Hd' Hw'). intros (d'' & H1 & H2). apply Hn. exists d''. split; [lia|auto].
Qed.

Lemma dist_0 v : dist g ok s 0 v -> v = s.
Proof. intros [H _]. inversion H. auto. Qed.

Lemma dist_src d : dist g ok s d s -> d = 0.
Proof. intros [_ H]. destruct d; auto. exfalso. apply (H 0); [lia|constructor]. Qed.

Lemma dist_unique d d' v : dist g ok s d v -> dist g ok s d' v -> d = d'.
Proof.
  intros [H1 H2] [H3 H4].
  destruct (lt_eq_lt_dec d d') as [[H|H]|H]; auto; exfalso; [apply (H4 d)|apply (H2 d')]; auto.
Qed.

Lemma dist_pred d v : dist g ok s (S d) v ->
  exists u, within g ok s d u /\ is_edge g u v /\ ok v.
Proof. intros [H _]. inversion H; subst; eauto. Qed.

Lemma dist_pred_dist d u v : dist g ok s (S d) v -> within g ok s d u -> is_edge g u v -> ok v ->
  dist g ok s d u.
Proof.
  intros [_ Hmin] Hu He Ho. split; auto. intros d' Hd' Hw.
  apply (Hmin (S d')); [lia|]. econstructor; eauto.
Qed.

Definition new (m : list bool) (v : nat) : Prop := v = s \/ (is_true_at m v /\ ok v).

Definition closed (m : list bool) (v : nat) : Prop :=
  forall w, is_edge g v w -> is_true_at m w.

(** Facts that hold throughout the search; [D] is the current depth, [q1], [q2] the queue
    entries on this and on the next level. *)
Record core (m : list bool) (p : list nat) (q1 q2 : list nat) (D : nat) : Prop := {
  c_lm : length m = gn g;
  c_lp : length p = gn g;
  c_src : is_true_at m s;
  c_old : forall v, is_true_at m0 v -> is_true_at m v;
  c_new : forall v, is_true_at m v -> v = s \/ ok v \/ is_true_at m0 v;
  c_q1 : forall v, In v q1 -> new m v /\ dist g ok s D v;
  c_q2 : forall v, In v q2 -> new m v /\ dist g ok s (S D) v;
  c_lvl : forall v, new m v -> exists d, dist g ok s d v /\ d <= S D /\ (d = S D -> In v q2);
  c_all : forall v d, dist g ok s d v -> d <= D -> new m v;
  c_ps : nth_error p s = Some s;
  c_par : forall v, new m v -> v <> s ->
     exists u d, nth_error p v = Some u /\ new m u /\ is_edge g u v /\
                 dist g ok s d u /\ dist g ok s (S d) v;
  c_cnt : length q2 + count_false m <= gn g
}.

Lemma new_true m p q1 q2 D v : core m p q1 q2 D -> new m v -> is_true_at m v.
Proof. intros C [->|[H _]]; auto. apply (c_src _ _ _ _ _ C). Qed.

Lemma visit_spec m p q1 q2 D u v :
  core m p q1 q2 D -> dist g ok s D u -> new m u -> is_edge g u v ->
  (Z.of_nat (gn g) <= int_max)%Z ->
  exists m' p' q2',
    bfs_visit u (m, p, q1 ++ q2, Z.of_nat (length q2)) v =
      Ok (m', p', q1 ++ q2', Z.of_nat (length q2')) /\
    core m' p' q1 q2' D /\ is_true_at m' v /\
    (forall w, is_true_at m w -> is_true_at m' w) /\
    (forall w, new m' w -> new m w \/ In w q2') /\ (forall w, In w q2 -> In w q2') /\
    length q2' + count_false m' = length q2 + count_false m.
Proof.
  intros C Hu Hnu He Hmax.
  pose proof (is_edge_range g u v Hg He) as [_ Hv].
  pose proof (c_lm _ _ _ _ _ C) as Hlm. pose proof (c_lp _ _ _ _ _ C) as Hlp.
  destruct (vget_ok m v) as (b & Eb & Enb); [lia|].
  unfold bfs_visit. rewrite Eb. cbn [bind]. destruct b.
  - exists m, p, q2. split; [reflexivity|]. split; [exact C|]. split; [exact Enb|].
    split; [auto|]. split; [auto|]. split; auto.
  - assert (Hvs : v <> s).
    { intros ->. pose proof (c_src _ _ _ _ _ C) as H. unfold is_true_at in H. congruence. }
    assert (Hokv : ok v).
    { unfold ok, is_false_at. destruct (nth_error m0 v) as [[|]|] eqn:E; auto.
      - pose proof (c_old _ _ _ _ _ C v E) as H. unfold is_true_at in H. congruence.
      - apply nth_error_None in E. lia. }
    assert (Hcf : S (count_false (upd m v true)) = count_false m) by now apply count_false_upd.
    pose proof (c_cnt _ _ _ _ _ C) as Hcnt.
    rewrite !vset_ok by lia. cbn [bind].
    rewrite chk_ok by (unfold int_min in *; lia). cbn [bind].
    exists (upd m v true), (upd p v u), (q2 ++ [v]). rewrite app_length. cbn [length].
    assert (Hmono : forall w, is_true_at m w -> is_true_at (upd m v true) w).
    { intros w Hw. unfold is_true_at. rewrite upd_nth by lia. destruct (Nat.eqb_spec v w); auto. }
    assert (Hinv : forall w, is_true_at (upd m v true) w -> w = v \/ is_true_at m w).
    { intros w Hw. unfold is_true_at in Hw. rewrite upd_nth in Hw by lia.
      destruct (Nat.eqb_spec v w); auto. }
    assert (Hnew : forall w, new m w -> new (upd m v true) w).
    { intros w [->|[H1 H2]]; [left; auto|right; auto]. }
    assert (Hnewi : forall w, new (upd m v true) w -> new m w \/ w = v).
    { intros w [->|[H1 H2]]; [left; left; auto|]. destruct (Hinv w H1) as [->|H3]; auto.
      left. right. auto. }
    assert (Hnewv : new (upd m v true) v).
    { right. split; auto. unfold is_true_at. apply upd_same. lia. }
    assert (Hdv : dist g ok s (S D) v).
    { split; [econstructor; eauto; apply Hu|]. intros d' Hd' Hw.
      apply (within_dist d' v Hw). intros (d'' & H1 & H2).
      destruct (c_all _ _ _ _ _ C v d'' H2) as [H3|[H3 _]]; [lia| |]; auto.
      unfold is_true_at in H3. congruence. }
    split.
    { replace (Z.of_nat (length q2) + 1)%Z with (Z.of_nat (length q2 + 1)) by lia.
      rewrite app_assoc. reflexivity. }
    split.
    { constructor; rewrite ?upd_length; auto.
      - apply Hmono, C.
      - intros w Hw. apply Hmono. now apply (c_old _ _ _ _ _ C).
      - intros w Hw. destruct (Hinv w Hw) as [->|H]; auto. now apply (c_new _ _ _ _ _ C).
      - intros w Hw. destruct (c_q1 _ _ _ _ _ C w Hw). split; auto.
      - intros w Hw. apply in_app_iff in Hw as [Hw|[->|[]]]; [|auto].
        destruct (c_q2 _ _ _ _ _ C w Hw). split; auto.
      - intros w Hw. destruct (Hnewi w Hw) as [H| ->].
        + destruct (c_lvl _ _ _ _ _ C w H) as (d & H1 & H2 & H3). exists d.
          repeat split; auto; try apply H1. intros E. apply in_app_iff. auto.
        + exists (S D). repeat split; auto; try apply Hdv. intros _. apply in_app_iff. simpl; auto.
      - intros w d Hd Hle. apply Hnew. eapply (c_all _ _ _ _ _ C); eauto.
      - rewrite upd_other by auto. apply C.
      - intros w Hw Hws. destruct (Nat.eq_dec w v) as [->|Hne].
        + exists u, D. rewrite upd_same by lia. repeat split; auto; try apply Hu; try apply Hdv.
        + destruct (Hnewi w Hw) as [H| ->]; [|congruence].
          destruct (c_par _ _ _ _ _ C w H Hws) as (u' & d & H1 & H2 & H3 & H4 & H5).
          exists u', d. rewrite upd_other by auto. repeat split; auto; try apply H4; apply H5.
      - rewrite app_length. cbn [length]. lia. }
    split. { unfold is_true_at. apply upd_same. lia. }
    split; [auto|]. split.
    { intros w Hw. destruct (Hnewi w Hw) as [H| ->]; auto. right. apply in_app_iff; simpl; auto. }
    split; [intros; apply in_app_iff; auto|]. lia.
Qed.

Lemma visits_spec u ns : (Z.of_nat (gn g) <= int_max)%Z ->
  (forall v, In v ns -> is_edge g u v) ->
  forall m p q1 q2 D,
  core m p q1 q2 D -> dist g ok s D u -> new m u ->
  exists m' p' q2',
    foldM (bfs_visit u) ns (m, p, q1 ++ q2, Z.of_nat (length q2)) =
      Ok (m', p', q1 ++ q2', Z.of_nat (length q2')) /\
    core m' p' q1 q2' D /\ (forall v, In v ns -> is_true_at m' v) /\
    (forall w, is_true_at m w -> is_true_at m' w) /\
    (forall w, new m' w -> new m w \/ In w q2') /\ (forall w, In w q2 -> In w q2') /\
    length q2' + count_false m' = length q2 + count_false m.
Proof.
  intros Hmax. induction ns as [|v ns IH]; intros Hns m p q1 q2 D C Hu Hnu; cbn [foldM].
  - exists m, p, q2. split; [reflexivity|]. split; [exact C|]. split; [intros v []|].
    split; [auto|]. split; [auto|]. split; auto.
  - destruct (visit_spec m p q1 q2 D u v C Hu Hnu) as (m1 & p1 & q3 & E & C1 & H1 & H2 & H3 & H4 & H5); auto.
    { apply Hns. now left. }
    rewrite E. cbn [bind].
    assert (Hnu1 : new m1 u) by (destruct Hnu as [?|[? ?]]; [left|right]; auto).
    destruct (IH (fun v Hv => Hns v (or_intror Hv)) m1 p1 q1 q3 D C1 Hu Hnu1)
      as (m2 & p2 & q4 & E' & C2 & K1 & K2 & K3 & K4 & K5).
    exists m2, p2, q4. rewrite E'. split; [reflexivity|]. split; [auto|].
    split. { intros w [<-|Hw]; auto. }
    split; [auto|]. split.
    { intros w Hw. destruct (K3 w Hw) as [H|H]; auto. destruct (H3 w H); auto. }
    split; [auto|lia].
Qed.

(** The outer invariant. *)
Record inv (limit : Z) (st : bfs_state) (q1 q2 : list nat) : Prop := {
  i_core : core (b_marked st) (b_parent st) q1 q2 (b_depth st);
  i_q : b_queue st = q1 ++ q2;
  i_this : b_this st = Z.of_nat (length q1);
  i_next : b_next st = Z.of_nat (length q2);
  i_closed : forall v, new (b_marked st) v -> In v (q1 ++ q2) \/ closed (b_marked st) v;
  i_q1 : q1 = [] -> q2 = [];
  i_lim : (limit <= Z.of_nat (b_depth st))%Z -> q2 = [];
  i_depth : (Z.of_nat (b_depth st) <= Z.max limit 0)%Z
}.

(** What the search guarantees about its outputs. *)
Definition bfs_post (limit : Z) (m : list bool) (p : list nat) : Prop :=
  length m = gn g /\ length p = gn g /\
  (forall v, is_true_at m v <-> is_true_at m0 v \/ v = s \/
             exists d, (Z.of_nat d <= limit)%Z /\ within g ok s d v) /\
  nth_error p s = Some s /\
  (forall v, new m v -> v <> s ->
     exists u d, nth_error p v = Some u /\ new m u /\ is_edge g u v /\
                 dist g ok s d u /\ dist g ok s (S d) v /\ (Z.of_nat (S d) <= limit)%Z).

(** closed search: everything reachable is new *)
Lemma closed_all m p q1 q2 D : core m p q1 q2 D -> (forall v, new m v -> closed m v) ->
  forall d v, within g ok s d v -> new m v.
Proof.
  intros C Hc. induction d as [|d IH]; intros v Hw; inversion Hw; subst.
  - left; auto.
  - right. split; auto. eapply Hc; eauto.
Qed.

Lemma exit_post limit st q1 q2 : inv limit st q1 q2 ->
  (q1 ++ q2 = [] \/ (limit <= Z.of_nat (b_depth st))%Z) ->
  bfs_post limit (b_marked st) (b_parent st).
Proof.
  intros I Hex. pose proof (i_core _ _ _ _ I) as C.
  assert (Hq2 : q2 = []).
  { destruct Hex as [H|H]; [now apply app_eq_nil in H|]. now apply (i_lim _ _ _ _ I). }
  assert (Hd : forall v, new (b_marked st) v -> exists d, dist g ok s d v /\ d <= b_depth st).
  { intros v Hv. destruct (c_lvl _ _ _ _ _ C v Hv) as (d & H1 & H2 & H3). exists d. split; auto.
    destruct (Nat.eq_dec d (S (b_depth st))) as [E|E]; [|lia]. apply H3 in E. subst q2. inversion E. }
  split; [apply C|]. split; [apply C|]. split; [|split].
  - intros v. split.
    + intros Hv. destruct (c_new _ _ _ _ _ C v Hv) as [->|[H|H]]; auto.
      assert (Hn : new (b_marked st) v) by (right; auto).
      destruct (Hd v Hn) as (d & H1 & H2).
      destruct (Nat.eq_dec v s) as [->|Hne]; auto. right; right.
      exists d. split; [|apply H1].
      assert (d <> 0) by (intros ->; apply dist_0 in H1; auto).
      pose proof (i_depth _ _ _ _ I). lia.
    + intros [H|[->|(d & Hle & Hw)]].
      * now apply (c_old _ _ _ _ _ C).
      * apply C.
      * destruct (nth_error (b_marked st) v) as [[|]|] eqn:E; auto.
        -- exfalso. apply (within_dist d v Hw). intros (d' & H1 & H2).
           assert (Hn : new (b_marked st) v).
           { destruct Hex as [H|H].
             - eapply closed_all with (d := d); eauto.
               intros w Hwn. destruct (i_closed _ _ _ _ I w Hwn) as [Hin|]; auto.
               rewrite H in Hin. inversion Hin.
             - eapply (c_all _ _ _ _ _ C); eauto. lia. }
           pose proof (new_true _ _ _ _ _ v C Hn) as H3. unfold is_true_at in H3. congruence.
        -- apply nth_error_None in E. pose proof (within_range d v Hw).
           pose proof (c_lm _ _ _ _ _ C). lia.
  - apply C.
  - intros v Hv Hvs. destruct (c_par _ _ _ _ _ C v Hv Hvs) as (u & d & H1 & H2 & H3 & H4 & H5).
    exists u, d. repeat split; auto; try apply H4; try apply H5.
    destruct (Hd v Hv) as (d' & H6 & H7).
    assert (d' = S d) by (eapply dist_unique; eauto). subst d'.
    pose proof (i_depth _ _ _ _ I). lia.
Qed.

Lemma loop_spec limit : (Z.of_nat (gn g) <= int_max)%Z ->
  forall fuel st q1 q2, inv limit st q1 q2 ->
  length (q1 ++ q2) + count_false (b_marked st) <= fuel ->
  exists m p, bfs_loop fuel g limit st = Ok (m, p) /\ bfs_post limit m p.
Proof.
  intros Hmax. induction fuel as [|fuel IH]; intros st q1 q2 I Hfuel.
  - assert (E : q1 ++ q2 = []) by (destruct (q1 ++ q2); auto; simpl in Hfuel; lia).
    exists (b_marked st), (b_parent st). split.
    + cbn [bfs_loop]. rewrite (i_q _ _ _ _ I), E. reflexivity.
    + eapply exit_post; eauto.
  - cbn [bfs_loop]. rewrite (i_q _ _ _ _ I).
    destruct q1 as [|u q1].
    { rewrite (i_q1 _ _ _ _ I eq_refl). simpl.
      exists (b_marked st), (b_parent st). split; auto.
      eapply exit_post; eauto. left. simpl. apply (i_q1 _ _ _ _ I eq_refl). }
    cbn [app]. destruct (Z.ltb_spec (Z.of_nat (b_depth st)) limit) as [Hlt|Hge].
    2:{ exists (b_marked st), (b_parent st). split; auto. eapply exit_post; eauto. }
    pose proof (i_core _ _ _ _ I) as C.
    destruct (c_q1 _ _ _ _ _ C u (or_introl eq_refl)) as [Hnu Hdu].
    assert (Hur : u < gn g) by (eapply within_range; apply Hdu).
    rewrite (adjacent_ok g u Hur). cbn [bind].
    rewrite (i_next _ _ _ _ I).
    assert (C' : core (b_marked st) (b_parent st) q1 q2 (b_depth st)).
    { destruct C. constructor; auto. intros v Hv. apply c_q3. now right. }
    destruct (visits_spec u (nbrs g u) Hmax) with (m := b_marked st) (p := b_parent st)
      (q1 := q1) (q2 := q2) (D := b_depth st)
      as (m' & p' & q2' & E & C1 & H1 & H2 & H3 & H4 & H5); auto.
    { intros v Hv. now apply nbrs_In. }
    rewrite E. cbn [bind].
    assert (Hclu : closed m' u) by (intros w Hw; apply H1; now apply nbrs_In).
    assert (Hcl : forall v, new m' v -> In v (q1 ++ q2') \/ closed m' v).
    { intros v Hv. destruct (H3 v Hv) as [H|H].
      - destruct (i_closed _ _ _ _ I v H) as [[->|Hin]|Hin]; auto.
        + apply in_app_iff in Hin. left. apply in_app_iff. destruct Hin; auto.
        + right. intros w Hw. apply H2. now apply Hin.
      - left. apply in_app_iff; auto. }
    rewrite (i_this _ _ _ _ I). cbn [length].
    simpl in Hfuel. rewrite app_length in Hfuel.
    destruct (Z.eqb_spec (Z.of_nat (S (length q1)) - 1) 0) as [Ht|Ht].
    + (* this level is finished *)
      assert (q1 = []) by (destruct q1; auto; cbn [length] in Ht; lia). subst q1. cbn [app] in *.
      apply IH with (q1 := q2') (q2 := []).
      * assert (Hall : forall v d, dist g ok s d v -> d <= S (b_depth st) -> new m' v).
        { intros v d Hd Hle.
          destruct (Nat.eq_dec d (S (b_depth st))) as [->|Hne].
          - destruct (dist_pred _ _ Hd) as (w & Hw & He & Ho).
            assert (Hdw : dist g ok s (b_depth st) w) by (eapply dist_pred_dist; eauto).
            assert (Hnw : new m' w) by (eapply (c_all _ _ _ _ _ C1); eauto).
            right. split; auto.
            destruct (Hcl w Hnw) as [Hin|Hin]; [|now apply Hin].
            exfalso. destruct (c_q2 _ _ _ _ _ C1 w Hin) as [_ Hd2].
            pose proof (dist_unique _ _ _ Hdw Hd2). lia.
          - eapply (c_all _ _ _ _ _ C1); eauto. lia. }
        constructor; cbn [b_marked b_parent b_queue b_depth b_this b_next]; auto.
        -- constructor; try apply C1; auto.
           ++ intros v [].
           ++ intros v Hv. destruct (c_lvl _ _ _ _ _ C1 v Hv) as (d & K1 & K2 & K3).
              exists d. repeat split; try apply K1; try lia.
           ++ simpl. pose proof (count_false_le m'). pose proof (c_lm _ _ _ _ _ C1). lia.
        -- now rewrite app_nil_r.
        -- intros v Hv. rewrite app_nil_r. auto.
        -- lia.
      * rewrite app_nil_r. cbn [b_marked]. simpl in Hfuel. lia.
    + apply IH with (q1 := q1) (q2 := q2').
      * constructor; cbn [b_marked b_parent b_queue b_depth b_this b_next]; auto.
        -- lia.
        -- intros ->. cbn [length] in Ht. lia.
        -- intros Hl. lia.
        -- apply I.
      * cbn [b_marked]. rewrite app_length. lia.
Qed.

Lemma bfs_ok p0 limit : length p0 = gn g -> (Z.of_nat (gn g) <= int_max)%Z ->
  exists m p, breadth_first_search g s m0 p0 limit = Ok (m, p) /\ bfs_post limit m p.
Proof.
  intros Hp0 Hmax. unfold breadth_first_search.
  rewrite !vset_ok by lia. cbn [bind].
  apply loop_spec with (q1 := [s]) (q2 := []); auto.
  - assert (Hmono : forall w, is_true_at m0 w -> is_true_at (upd m0 s true) w).
    { intros w Hw. unfold is_true_at. rewrite upd_nth by lia. destruct (Nat.eqb_spec s w); auto. }
    assert (Hnew : forall v, new (upd m0 s true) v -> v = s).
    { intros v [->|[H1 H2]]; auto. unfold is_true_at in H1. rewrite upd_nth in H1 by lia.
      destruct (Nat.eqb_spec s v) as [->|Hne]; auto.
      unfold ok, is_false_at in H2. congruence. }
    assert (Hd0 : dist g ok s 0 s) by (split; [constructor|intros; lia]).
    constructor; cbn [b_marked b_parent b_queue b_depth b_this b_next]; auto; try lia.
    + constructor; rewrite ?upd_length; auto.
      * unfold is_true_at. apply upd_same; lia.
      * intros v Hv. unfold is_true_at in Hv. rewrite upd_nth in Hv by lia.
        destruct (Nat.eqb_spec s v) as [->|Hne]; auto.
      * intros v [->|[]]. split; auto. left; auto.
      * intros v [].
      * intros v Hv. apply Hnew in Hv. subst. exists 0. split; [auto|]. split; [lia|]. lia.
      * intros v d Hd Hle. assert (d = 0) by lia. subst. apply dist_0 in Hd. left; auto.
      * apply upd_same; lia.
      * intros v Hv Hvs. apply Hnew in Hv. congruence.
      * simpl. pose proof (count_false_le (upd m0 s true)). rewrite upd_length in *. lia.
    + intros v Hv. apply Hnew in Hv. subst. left. simpl; auto.
  - simpl. pose proof (count_false_le (upd m0 s true)). rewrite upd_length in *.
    unfold num_vertices. lia.
Qed.

(** *** Paths from the parents *)
Section Path.
Context (limit : Z) (m : list bool) (p : list nat).
Context (Hpost : bfs_post limit m p).

Lemma new_dist v : new m v -> exists d, dist g ok s d v /\ (Z.of_nat d <= Z.max limit 0)%Z.
Proof.
  intros Hv. destruct (Nat.eq_dec v s) as [->|Hne].
  - exists 0. split; [split; [constructor|intros; lia]|lia].
  - destruct Hpost as (_ & _ & _ & _ & H). destruct (H v Hv Hne) as (u & d & _ & _ & _ & _ & H1 & H2).
    exists (S d). split; auto. lia.
Qed.

(** following the parents from [v] (at distance [d]) prepends the tree path *)
Lemma path_loop n d : forall v par rest,
  new m v -> dist g ok s d v -> nth_error p v = Some par -> d <= n ->
  exists pre,
    path_in_tree_loop n p v par (v :: rest) = Ok (pre ++ v :: rest) /\
    length pre = d /\ is_walk g (pre ++ [v]) /\
    (forall w, In w (tl (pre ++ [v])) -> ok w) /\ hd_error (pre ++ [v]) = Some s /\
    (forall i w, nth_error pre i = Some w -> dist g ok s i w).
Proof.
  destruct Hpost as (Hlm & Hlp & _ & Hps & Hpar).
  revert n. induction d as [|d IH]; intros n v par rest Hv Hd Hp Hn.
  - apply dist_0 in Hd. subst v. rewrite Hps in Hp. inversion Hp; subst.
    exists []. destruct n; cbn [path_in_tree_loop]; rewrite Nat.eqb_refl; simpl;
      (split; [reflexivity|]; split; [reflexivity|]; split; [constructor|];
       split; [intros w []|]; split; [reflexivity|]; intros [|i] w Hw; discriminate).
  - assert (Hvs : v <> s) by (intros ->; apply dist_src in Hd; lia).
    destruct (Hpar v Hv Hvs) as (u & d' & H1 & H2 & H3 & H4 & H5 & H6).
    assert (par = u) by congruence. subst par.
    assert (S d' = S d) by (eapply dist_unique; eauto). assert (d' = d) by lia. subst d'.
    assert (Huv : u <> v) by (intros ->; pose proof (dist_unique _ _ _ H4 H5); lia).
    destruct n as [|n]; [lia|]. cbn [path_in_tree_loop].
    destruct (Nat.eqb_spec u v) as [|_]; [congruence|].
    assert (Hur : u < length p) by (rewrite Hlp; eapply within_range; apply H4).
    destruct (vget_ok p u Hur) as (par & Ep & Enp). rewrite Ep. cbn [bind].
    destruct (IH n u par (v :: rest) H2 H4 Enp) as (pre & E & L & W & O & Hh & Hds); [lia|].
    exists (pre ++ [u]). rewrite E. rewrite <- !app_assoc. simpl. split; [auto|].
    split; [rewrite app_length; simpl; lia|].
    split.
    { apply is_walk_join; auto. constructor; auto. constructor. }
    assert (Hov : ok v). { destruct Hv as [?|[? ?]]; [congruence|auto]. }
    split.
    { intros w Hw. destruct pre as [|x pre]; simpl in *.
      - destruct Hw as [<-|[]]; auto.
      - rewrite in_app_iff in Hw. simpl in Hw.
        destruct Hw as [Hw|[Hw|[Hw|[]]]].
        + apply O. apply in_app_iff; auto.
        + apply O. apply in_app_iff; simpl; auto.
        + subst. auto. }
    split. { destruct pre; simpl in *; auto. }
    intros i w Hw. destruct (lt_dec i (length pre)) as [Hi|Hi].
    + rewrite nth_error_app1 in Hw by lia. auto.
    + rewrite nth_error_app2 in Hw by lia.
      destruct (i - length pre) as [|k] eqn:Ei; simpl in Hw; [|destruct k; discriminate].
      inversion Hw; subst w. replace i with d by lia. auto.
Qed.

Lemma path_in_tree_ok v : new m v ->
  exists pre, path_in_tree_from_parents p v = Ok (pre ++ [v]) /\
    is_walk g (pre ++ [v]) /\ NoDup (pre ++ [v]) /\ hd_error (pre ++ [v]) = Some s /\
    (forall w, In w (tl (pre ++ [v])) -> ok w) /\
    dist g ok s (length pre) v /\ (Z.of_nat (length pre) <= Z.max limit 0)%Z /\
    Forall (fun w => w < gn g) (pre ++ [v]).
Proof.
  intros Hv. destruct (new_dist v Hv) as (d & Hd & Hle).
  assert (Hvr : v < gn g) by (eapply within_range; apply Hd).
  pose proof Hpost as (Hlm & Hlp & _ & Hps & Hpar).
  unfold path_in_tree_from_parents.
  destruct (vget_ok p v) as (par & Ep & Enp); [lia|]. rewrite Ep. cbn [bind].
  (* distances along a tree path are distinct, so d < n *)
  destruct (path_loop d d v par [] Hv Hd Enp (le_n d)) as (pre0 & _ & L0 & _ & _ & _ & D0).
  assert (HND : NoDup (pre0 ++ [v]) /\ Forall (fun w => w < gn g) (pre0 ++ [v])).
  { split.
    - apply NoDup_nth_error. intros i j Hi Hij.
      assert (HD : forall k w, nth_error (pre0 ++ [v]) k = Some w -> dist g ok s k w).
      { intros k w Hk. destruct (lt_dec k (length pre0)) as [Hk'|Hk'].
        - rewrite nth_error_app1 in Hk by lia. auto.
        - rewrite nth_error_app2 in Hk by lia.
          destruct (k - length pre0) as [|k'] eqn:Ek; simpl in Hk; [|destruct k'; discriminate].
          inversion Hk; subst w. replace k with d by lia. auto. }
      destruct (nth_error (pre0 ++ [v]) i) as [w|] eqn:E1.
      + symmetry in Hij. pose proof (HD _ _ E1). pose proof (HD _ _ Hij).
        eapply dist_unique; eauto.
      + apply nth_error_None in E1. lia.
    - apply Forall_app. split; [|constructor; auto].
      apply Forall_forall. intros w Hw. apply In_nth_error in Hw as [i Hi].
      eapply within_range. apply (D0 i w Hi). }
  destruct HND as [HND HF].
  assert (Hdn : d < gn g).
  { pose proof (NoDup_length_le _ _ HND HF) as H. rewrite app_length in H. simpl in H. lia. }
  destruct (path_loop (S (length p)) d v par [] Hv Hd Enp) as (pre & E & L & W & O & Hh & D1); [lia|].
  exists pre. split; [exact E|]. split; [auto|]. split.
  { apply NoDup_nth_error. intros i j Hi Hij.
    assert (HD : forall k w, nth_error (pre ++ [v]) k = Some w -> dist g ok s k w).
    { intros k w Hk. destruct (lt_dec k (length pre)) as [Hk'|Hk'].
      - rewrite nth_error_app1 in Hk by lia. auto.
      - rewrite nth_error_app2 in Hk by lia.
        destruct (k - length pre) as [|k'] eqn:Ek; simpl in Hk; [|destruct k'; discriminate].
        inversion Hk; subst w. replace k with d by lia. auto. }
    destruct (nth_error (pre ++ [v]) i) as [w|] eqn:E1.
    + symmetry in Hij. pose proof (HD _ _ E1). pose proof (HD _ _ Hij).
      eapply dist_unique; eauto.
    + apply nth_error_None in E1. lia. }
  split; [auto|]. split; [auto|]. rewrite L. split; [auto|]. split; [auto|].
  apply Forall_app. split; [|constructor; auto].
  apply Forall_forall. intros w Hw. apply In_nth_error in Hw as [i Hi].
  eapply within_range. apply (D1 i w Hi).
Qed.
End Path.
End BFS.

(** The two facts in the form used by the property theorem. *)
Lemma bfs_spec g s m0 p0 limit :
  graph_ok g -> length m0 = gn g -> length p0 = gn g -> s < gn g ->
  (Z.of_nat (gn g) <= int_max)%Z ->
  let free v := nth_error m0 v = Some false in
  exists m p, breadth_first_search g s m0 p0 limit = Ok (m, p) /\
    (forall v, nth_error m v = Some true <->
       nth_error m0 v = Some true \/ v = s \/
       exists d, (Z.of_nat d <= limit)%Z /\ within g free s d v) /\
    (forall v, nth_error m v = Some true -> v = s \/ free v ->
       exists path, path_in_tree_from_parents p v = Ok path /\
         is_walk g path /\ NoDup path /\ hd_error path = Some s /\ last path s = v /\
         (forall w, In w (tl path) -> free w) /\
         dist g free s (length path - 1) v /\
         (Z.of_nat (length path - 1) <= Z.max limit 0)%Z).
Proof.
  intros Hg Hm Hp Hs Hmax free.
  destruct (bfs_ok g m0 s Hg Hm Hs p0 limit Hp Hmax) as (m & p & E & H).
  exists m, p. split; [exact E|]. split; [apply H|].
  intros v Hv Hc.
  assert (Hn : new m0 s m v) by (destruct Hc as [Hc|Hc]; [left|right]; auto).
  destruct (path_in_tree_ok g m0 s Hm Hs limit m p H v Hn)
    as (pre & E1 & H1 & H2 & H3 & H4 & H5 & H6 & H7).
  exists (pre ++ [v]). rewrite app_length. cbn [length].
  replace (length pre + 1 - 1) with (length pre) by lia.
  split; [auto|]. split; [auto|]. split; [auto|]. split; [auto|].
  split; [now rewrite last_last|]. auto.
Qed.
