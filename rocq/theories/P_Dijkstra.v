(** * P_Dijkstra: correctness of the blacklist Dijkstra search for every tie-breaking. *)
From Verif Require Import Base Graph Spec M_Graph M_Dijkstra P_Base P_BFS.
Open Scope nat_scope.

(** The heap yields some queue element of minimal distance. *)
Definition good_pick (tb : tiebreak) : Prop :=
  forall s t mark k dist q, q <> [] ->
    (forall v, In v q -> v < length dist) ->
    In (tb s t mark k dist q) q /\
    forall v d du, In v q -> nth_error dist v = Some d ->
      nth_error dist (tb s t mark k dist q) = Some du -> (du <= d)%Z.

Lemma combine_seq_In {A} (l : list A) k e x :
  In (e, x) (combine (seq k (length l)) l) <-> k <= e /\ nth_error l (e - k) = Some x.
Proof.
  revert k. induction l as [|a l IH]; intros k; simpl.
  - split; [intros []|]. intros [_ H]. destruct (e - k); discriminate.
  - rewrite IH. split.
    + intros [H|[H1 H2]].
      * inversion H; subst. rewrite Nat.sub_diag. auto.
      * split; [lia|]. replace (e - k) with (S (e - S k)) by lia. auto.
    + intros [H1 H2]. destruct (Nat.eq_dec e k) as [ -> |Hne].
      * rewrite Nat.sub_diag in H2. simpl in H2. inversion H2; auto.
      * right. split; [lia|]. replace (e - k) with (S (e - S k)) in H2 by lia. auto.
Qed.

Lemma out_edges_In g u v e : In (v, e) (out_edges g u) <-> joins g e u v.
Proof.
  unfold out_edges, joins. rewrite in_flat_map. split.
  - intros ((e', [a b]) & Hin & Hv). apply combine_seq_In in Hin as [_ Hn]. rewrite Nat.sub_0_r in Hn.
    unfold out_of in Hv. cbn [fst snd] in Hv. apply in_app_iff in Hv as [Hv|Hv].
    + destruct (Nat.eqb_spec a u); [|destruct Hv]. destruct Hv as [Hv|[]]. inversion Hv; subst. auto.
    + destruct (Nat.eqb_spec b u); [|destruct Hv]. destruct Hv as [Hv|[]]. inversion Hv; subst. auto.
  - intros [H|H].
    + exists (e, (u, v)). rewrite combine_seq_In, Nat.sub_0_r. split; [split; [lia|auto]|].
      unfold out_of. cbn [fst snd]. rewrite Nat.eqb_refl. apply in_app_iff. left. now left.
    + exists (e, (v, u)). rewrite combine_seq_In, Nat.sub_0_r. split; [split; [lia|auto]|].
      unfold out_of. cbn [fst snd]. rewrite Nat.eqb_refl. apply in_app_iff. right. now left.
Qed.

Lemma remove1_In x l v : NoDup l -> In v (remove1 x l) <-> In v l /\ v <> x.
Proof.
  induction l as [|y l IH]; intros Hnd; [simpl; tauto|]. inversion Hnd as [|? ? Hn Hnd']; subst.
  cbn [remove1]. destruct (Nat.eqb_spec y x) as [ -> |Hne].
  - simpl. split; [intros H; split; auto; intros ->; auto|]. intros [[ -> |H] H']; congruence.
  - simpl. rewrite IH by auto. split.
    + intros [ -> |[H1 H2]]; auto.
    + intros [[ -> |H1] H2]; auto.
Qed.

Lemma remove1_NoDup x l : NoDup l -> NoDup (remove1 x l).
Proof.
  induction l as [|y l IH]; intros Hnd; simpl; auto. inversion Hnd as [|? ? Hn Hnd']; subst.
  destruct (Nat.eqb_spec y x); auto. constructor; auto.
  rewrite remove1_In by auto. tauto.
Qed.

Section Dij.
Context (tb : tiebreak) (Htb : good_pick tb).
Context (g : graph) (c : list Z) (s t : nat) (mark : list bool) (C : Z).
Context (Hg : graph_ok g) (Hc : costs_within g c 0 C).
Context (HC : (0 <= C)%Z) (Hmax : (Z.of_nat (gn g) * C < int_max)%Z).
Context (Hmark : length mark = gn g) (Hs : s < gn g).

Let ok (v : nat) : Prop := is_false_at mark v.

(** the cost of some walk from [s] through unmarked vertices *)
Inductive reach : nat -> Z -> Prop :=
| reach_0 : reach s 0
| reach_S : forall u v e x z, reach u z -> joins g e u v -> nth_error c e = Some x -> ok v ->
    reach v (z + x).

Lemma cost_ex e u v : joins g e u v -> exists x, nth_error c e = Some x /\ (0 <= x <= C)%Z.
Proof.
  intros H. apply joins_lt in H. destruct Hc as [Hl Hf]. rewrite <- Hl in H.
  destruct (nth_error c e) as [x|] eqn:E; [|apply nth_error_None in E; lia].
  exists x. split; auto. rewrite Forall_forall in Hf. apply Hf. eapply nth_error_In; eauto.
Qed.

Lemma ok_range v : ok v -> v < gn g.
Proof. unfold ok, is_false_at. intros H. rewrite <- Hmark. eapply nth_error_Some_lt; eauto. Qed.

(** Facts about the state; [dn] are the vertices popped so far (in order). *)
Record base (dn : list nat) (cur : option nat) (st : dstate) : Prop := {
  b_lc : length (d_col st) = gn g;
  b_ld : length (d_dist st) = gn g;
  b_lp : length (d_pred st) = gn g;
  b_nd : NoDup (dn ++ d_queue st);
  b_range : forall v, In v (dn ++ d_queue st) -> v < gn g;
  b_s : In s (dn ++ d_queue st);
  b_s0 : nth_error (d_dist st) s = Some 0%Z;
  b_ps : nth_error (d_pred st) s = Some s;
  b_free : forall v, In v (dn ++ d_queue st) -> v = s \/ ok v;
  b_white : forall v, nth_error (d_col st) v = Some White -> ~ In v (dn ++ d_queue st) /\
                nth_error (d_dist st) v = Some int_max;
  b_gray : forall v, nth_error (d_col st) v = Some Gray -> In v (d_queue st) \/ cur = Some v;
  b_black : forall v, nth_error (d_col st) v = Some Black -> In v dn \/ nth_error mark v = Some true;
  b_queue : forall v, In v (d_queue st) -> nth_error (d_col st) v = Some Gray;
  b_done : forall v, In v dn -> cur <> Some v -> nth_error (d_col st) v = Some Black;
  b_reach : forall v, In v (dn ++ d_queue st) -> exists d, nth_error (d_dist st) v = Some d /\
                reach v d /\ (0 <= d <= Z.of_nat (length dn) * C)%Z;
  b_mono : forall v w dv dw, In v dn -> In w (d_queue st) ->
                nth_error (d_dist st) v = Some dv -> nth_error (d_dist st) w = Some dw -> (dv <= dw)%Z;
  b_pred : forall v, In v (dn ++ d_queue st) -> v <> s -> exists u e x du,
                nth_error (d_pred st) v = Some u /\ In u dn /\ joins g e u v /\
                nth_error c e = Some x /\ nth_error (d_dist st) u = Some du /\
                nth_error (d_dist st) v = Some (du + x)%Z;
  b_order : forall d1 v d2 u, dn = d1 ++ v :: d2 -> v <> s -> nth_error (d_pred st) v = Some u -> In u d1
}.

(** every edge of a finished vertex has been relaxed *)
Definition closed_at (dn : list nat) (st : dstate) (v w e : nat) : Prop :=
  forall x dv, nth_error c e = Some x -> nth_error (d_dist st) v = Some dv -> ok w ->
    In w (dn ++ d_queue st) /\ exists dw, nth_error (d_dist st) w = Some dw /\ (dw <= dv + x)%Z.

Definition inv (dn : list nat) (st : dstate) : Prop :=
  base dn None st /\
  (forall v w e, In v dn -> joins g e v w -> closed_at dn st v w e).

(** while the edges [pe] of the popped vertex [u] have been visited *)
Definition inv_in (dn : list nat) (u : nat) (pe : list (nat * nat)) (st : dstate) : Prop :=
  base (dn ++ [u]) (Some u) st /\ In s (dn ++ [u]) /\
  (forall v w e, In v dn -> joins g e v w -> closed_at (dn ++ [u]) st v w e) /\
  (forall w e, In (w, e) pe -> closed_at (dn ++ [u]) st u w e) /\
  (forall v dv du, In v dn -> nth_error (d_dist st) v = Some dv -> nth_error (d_dist st) u = Some du ->
     (dv <= du)%Z) /\
  (exists du, nth_error (d_dist st) u = Some du /\ (0 <= du <= Z.of_nat (length dn) * C)%Z).


Lemma len_le dn cur st : base dn cur st -> length dn + length (d_queue st) <= gn g.
Proof.
  intros B. rewrite <- app_length. apply NoDup_length_le.
  - exact (b_nd _ _ _ B).
  - apply Forall_forall. exact (b_range _ _ _ B).
Qed.

Lemma not_true_false v : v < gn g -> nth_error mark v <> Some true -> ok v.
Proof.
  intros Hv H. unfold ok, is_false_at. destruct (nth_error mark v) as [[]|] eqn:E; try congruence.
  apply nth_error_None in E. lia.
Qed.

(** the distance of [v] is lowered through the edge [e] from [u] *)
Lemma improve dn u pe st v e x du dv col' q' :
  inv_in dn u pe st -> joins g e u v -> nth_error c e = Some x -> ok v ->
  ~ In v (dn ++ [u]) -> nth_error (d_dist st) u = Some du -> nth_error (d_dist st) v = Some dv ->
  (du + x < dv)%Z ->
  (forall w, In w q' <-> In w (d_queue st) \/ w = v) -> NoDup ((dn ++ [u]) ++ q') ->
  length col' = gn g -> nth_error col' v = Some Gray ->
  (forall w, w <> v -> nth_error col' w = nth_error (d_col st) w) ->
  inv_in dn u (pe ++ [(v, e)]) (mkD col' (upd (d_dist st) v (du + x)%Z) (upd (d_pred st) v u) q').
Proof.
  intros (B & Hsin & Hcl & Hpe & Hle & Hdu) Hj Hx Hok Hvn Hdu' Hdv Hlt Hq Hnd Hlc Hcv Hco.
  destruct Hdu as (du0 & E0 & Hdub). assert (du0 = du) by congruence. subst du0.
  destruct (cost_ex e u v Hj) as (x0 & Ex0 & Hxb). assert (x0 = x) by congruence. subst x0.
  pose proof (ok_range v Hok) as Hvr.
  assert (Huin : In u (dn ++ [u])) by (apply in_app_iff; simpl; auto).
  assert (Huv : u <> v) by (intros ->; tauto).
  assert (Hsv : s <> v) by (intros ->; tauto).
  assert (Hlen : length (dn ++ [u]) = S (length dn)) by (rewrite app_length; simpl; lia).
  assert (Hin : forall w, In w ((dn ++ [u]) ++ q') <-> In w ((dn ++ [u]) ++ d_queue st) \/ w = v).
  { intros w. rewrite (in_app_iff (dn ++ [u])), (in_app_iff (dn ++ [u]) (d_queue st)), Hq. tauto. }
  assert (Hdn : forall w, In w (dn ++ [u]) -> w <> v) by (intros w Hw ->; tauto).
  assert (Hd' : forall w, nth_error (upd (d_dist st) v (du + x)%Z) w =
            if Nat.eqb v w then Some (du + x)%Z else nth_error (d_dist st) w).
  { intros w. apply upd_nth. rewrite (b_ld _ _ _ B). auto. }
  assert (Hp' : forall w, nth_error (upd (d_pred st) v u) w =
            if Nat.eqb v w then Some u else nth_error (d_pred st) w).
  { intros w. apply upd_nth. rewrite (b_lp _ _ _ B). auto. }
  assert (Hd'o : forall w, w <> v -> nth_error (upd (d_dist st) v (du + x)%Z) w = nth_error (d_dist st) w).
  { intros w Hw. rewrite Hd'. destruct (Nat.eqb_spec v w); congruence. }
  assert (Hd'v : nth_error (upd (d_dist st) v (du + x)%Z) v = Some (du + x)%Z).
  { rewrite Hd'. now rewrite Nat.eqb_refl. }
  assert (Hclo : forall a w e', In a (dn ++ [u]) -> closed_at (dn ++ [u]) st a w e' ->
     closed_at (dn ++ [u]) (mkD col' (upd (d_dist st) v (du + x)%Z) (upd (d_pred st) v u) q') a w e').
  { intros a w e' Ha Hold y da Hy Hda Hokw. cbn [d_dist d_queue] in *.
    rewrite Hd'o in Hda by auto. destruct (Hold y da Hy Hda Hokw) as (Hwin & dw & Hdw & Hdwl).
    split; [apply Hin; auto|].
    destruct (Nat.eq_dec w v) as [ -> |Hwv].
    - exists (du + x)%Z. split; auto. assert (dw = dv) by congruence. lia.
    - exists dw. rewrite Hd'o by auto. auto. }
  split; [|split; [auto|split; [|split; [|split]]]].
  - constructor; cbn [d_col d_dist d_pred d_queue].
    + auto.
    + rewrite upd_length. apply (b_ld _ _ _ B).
    + rewrite upd_length. apply (b_lp _ _ _ B).
    + auto.
    + intros w Hw. apply Hin in Hw as [Hw| ->]; auto. apply (b_range _ _ _ B); auto.
    + apply Hin. left. apply (b_s _ _ _ B).
    + rewrite Hd'o by auto. apply (b_s0 _ _ _ B).
    + rewrite Hp'. destruct (Nat.eqb_spec v s); [congruence|]. apply (b_ps _ _ _ B).
    + intros w Hw. apply Hin in Hw as [Hw| ->]; auto. apply (b_free _ _ _ B); auto.
    + intros w Hw. destruct (Nat.eq_dec w v) as [ -> |Hwv]; [congruence|].
      rewrite Hco in Hw by auto. destruct (b_white _ _ _ B w Hw) as [H1 H2].
      rewrite Hd'o by auto. split; auto. rewrite Hin. tauto.
    + intros w Hw. destruct (Nat.eq_dec w v) as [ -> |Hwv]; [left; apply Hq; auto|].
      rewrite Hco in Hw by auto. destruct (b_gray _ _ _ B w Hw) as [H1|H1]; auto.
      left. apply Hq. auto.
    + intros w Hw. destruct (Nat.eq_dec w v) as [ -> |Hwv]; [congruence|].
      rewrite Hco in Hw by auto. apply (b_black _ _ _ B w Hw).
    + intros w Hw. apply Hq in Hw as [Hw| ->]; auto.
      destruct (Nat.eq_dec w v) as [ -> |Hwv]; [auto|]. rewrite Hco by auto. apply (b_queue _ _ _ B w Hw).
    + intros w Hw Hcur. rewrite Hco by auto. apply (b_done _ _ _ B w Hw Hcur).
    + intros w Hw. apply Hin in Hw as [Hw| ->].
      * destruct (Nat.eq_dec w v) as [ -> |Hwv].
        -- exists (du + x)%Z. split; [auto|]. split; [|rewrite Hlen; lia].
           destruct (b_reach _ _ _ B u) as (d & E & R & _); [apply in_app_iff; auto|].
           assert (d = du) by congruence. subst d. econstructor; eauto.
        -- rewrite Hd'o by auto. apply (b_reach _ _ _ B w Hw).
      * exists (du + x)%Z. split; [auto|]. split; [|rewrite Hlen; lia].
        destruct (b_reach _ _ _ B u) as (d & E & R & _); [apply in_app_iff; auto|].
        assert (d = du) by congruence. subst d. econstructor; eauto.
    + intros a w da dw Ha Hw Eda Edw. rewrite Hd'o in Eda by auto.
      assert (Hau : (da <= du)%Z).
      { apply in_app_iff in Ha as [Ha|[ -> |[]]]; [eapply Hle; eauto|].
        assert (da = du) by congruence. lia. }
      destruct (Nat.eq_dec w v) as [ -> |Hwv].
      * assert (dw = du + x)%Z by congruence. lia.
      * rewrite Hd'o in Edw by auto. apply Hq in Hw as [Hw|Hw]; [|congruence].
        eapply (b_mono _ _ _ B a w); eauto.
    + intros w Hw Hws. destruct (Nat.eq_dec w v) as [ -> |Hwv].
      * exists u, e, x, du. rewrite Hp', Nat.eqb_refl, Hd'v. rewrite Hd'o by auto.
        repeat (split; [auto; fail|]). auto.
      * apply Hin in Hw as [Hw|Hw]; [|congruence].
        destruct (b_pred _ _ _ B w Hw Hws) as (a & e' & y & da & H1 & H2 & H3 & H4 & H5 & H6).
        exists a, e', y, da. rewrite Hp', !Hd'o by auto.
        destruct (Nat.eqb_spec v w); [congruence|]. auto 10.
    + intros d1 w d2 a Edn Hws Ha. rewrite Hp' in Ha.
      assert (Hwn : In w (dn ++ [u])) by (rewrite Edn; apply in_app_iff; simpl; auto).
      destruct (Nat.eqb_spec v w) as [E|_]; [subst; tauto|]. eapply (b_order _ _ _ B); eauto.
  - intros a w e' Ha Hje. apply Hclo; auto. apply in_app_iff; auto.
  - intros w e' Hw. apply in_app_iff in Hw as [Hw|[Hw|[]]].
    + apply Hclo; auto.
    + inversion Hw; subst w e'. intros y da Hy Hda _. cbn [d_dist d_queue] in *.
      rewrite Hd'o in Hda by auto. split; [apply Hin; auto|].
      exists (du + x)%Z. split; auto. assert (y = x) by congruence. assert (da = du) by congruence. lia.
  - intros a da du1 Ha Eda Edu. cbn [d_dist] in *. rewrite Hd'o in Eda, Edu by (auto; apply Hdn; apply in_app_iff; auto).
    eapply Hle; eauto.
  - exists du. cbn [d_dist]. rewrite Hd'o by auto. auto.
Qed.

(** nothing changes but the colour of marked vertices, the edge is handled *)
Lemma keep dn u pe st v e col' :
  inv_in dn u pe st -> joins g e u v -> closed_at (dn ++ [u]) st u v e ->
  length col' = gn g ->
  (forall w, nth_error col' w = nth_error (d_col st) w \/
             (nth_error col' w = Some Black /\ nth_error mark w = Some true)) ->
  inv_in dn u (pe ++ [(v, e)]) (mkD col' (d_dist st) (d_pred st) (d_queue st)).
Proof.
  intros (B & Hsin & Hcl & Hpe & Hle & Hdu) Hj Hclo Hlc Hco.
  assert (Hqn : forall w, In w (d_queue st) -> nth_error mark w <> Some true).
  { intros w Hw Hm. destruct (b_free _ _ _ B w) as [ -> |Hok]; [apply in_app_iff; auto| |].
    - pose proof (b_nd _ _ _ B) as Hnd. apply NoDup_app_iff in Hnd as (_ & _ & Hd).
      apply (Hd s); auto.
    - unfold ok, is_false_at in Hok. congruence. }
  split; [|split; [auto|split; [|split; [|split]]]]; auto.
  - constructor; cbn [d_col d_dist d_pred d_queue]; try apply B; auto.
    + intros w Hw. destruct (Hco w) as [E|[E _]]; [|congruence]. rewrite E in Hw.
      apply (b_white _ _ _ B w Hw).
    + intros w Hw. destruct (Hco w) as [E|[E _]]; [|congruence]. rewrite E in Hw.
      apply (b_gray _ _ _ B w Hw).
    + intros w Hw. destruct (Hco w) as [E|[_ E]]; [|auto]. rewrite E in Hw.
      apply (b_black _ _ _ B w Hw).
    + intros w Hw. destruct (Hco w) as [E|[_ E]]; [rewrite E; apply (b_queue _ _ _ B w Hw)|].
      exfalso. eapply Hqn; eauto.
    + intros w Hw Hcur. destruct (Hco w) as [E|[E _]]; [|auto]. rewrite E. apply (b_done _ _ _ B w Hw Hcur).
  - intros w e' Hw. apply in_app_iff in Hw as [Hw|[Hw|[]]]; [now apply Hpe|].
    inversion Hw; subst. exact Hclo.
Qed.

Lemma visit_edge_ok dn u pe st v e :
  inv_in dn u pe st -> joins g e u v -> length dn < gn g ->
  exists st', visit_edge c mark u st (v, e) = Ok st' /\ inv_in dn u (pe ++ [(v, e)]) st'.
Proof.
  intros HI Hj Hdn. pose proof HI as (B & Hsin & Hcl & Hpe & Hle & Hdu).
  destruct Hdu as (du & Edu & Hdub).
  destruct (cost_ex e u v Hj) as (x & Ex & Hxb).
  assert (Hvr : v < gn g) by (eapply (is_edge_range g u v Hg); exists e; auto).
  unfold visit_edge. unfold cost_of. rewrite (vget_some _ _ _ Ex). cbn [bind].
  destruct (Z.ltb_spec x 0) as [H|_]; [lia|].
  destruct (vget_ok mark v) as (mv & Emv & Nmv); [lia|]. rewrite Emv. cbn [bind].
  assert (Hcv : exists cv, nth_error (d_col st) v = Some cv).
  { destruct (nth_error (d_col st) v) eqn:E; eauto. apply nth_error_None in E.
    rewrite (b_lc _ _ _ B) in E. lia. }
  destruct Hcv as (cv & Ecv).
  assert (Hdv : exists dv, nth_error (d_dist st) v = Some dv).
  { destruct (nth_error (d_dist st) v) eqn:E; eauto. apply nth_error_None in E.
    rewrite (b_ld _ _ _ B) in E. lia. }
  destruct Hdv as (dv & Edv).
  assert (HnC : (Z.of_nat (length dn) * C + C <= Z.of_nat (gn g) * C)%Z).
  { replace (Z.of_nat (length dn) * C + C)%Z with (Z.of_nat (S (length dn)) * C)%Z by lia.
    apply Z.mul_le_mono_nonneg_r; lia. }
  destruct mv.
  - (* blacklisted *)
    rewrite vset_ok by (rewrite (b_lc _ _ _ B); lia). cbn [bind].
    assert (En : nth_error (upd (d_col st) v Black) v = Some Black).
    { rewrite upd_nth by (rewrite (b_lc _ _ _ B); lia). now rewrite Nat.eqb_refl. }
    rewrite (vget_some _ _ _ En). cbn [bind].
    eexists; split; [reflexivity|]. apply keep; auto.
    + intros y da _ _ Hok. unfold ok, is_false_at in Hok. congruence.
    + rewrite upd_length. apply (b_lc _ _ _ B).
    + intros w. rewrite upd_nth by (rewrite (b_lc _ _ _ B); lia).
      destruct (Nat.eqb_spec v w) as [ -> |]; auto.
  - assert (Hok : ok v) by exact Nmv.
    cbn [bind]. rewrite (vget_some _ _ _ Ecv). cbn [bind].
    assert (Hrelax : forall col q, relax_target (mkD col (d_dist st) (d_pred st) q) u v x =
       if (du + x <? dv)%Z then Ok (mkD col (upd (d_dist st) v (du + x)%Z) (upd (d_pred st) v u) q)
       else Ok (mkD col (d_dist st) (d_pred st) q)).
    { intros col q. unfold relax_target. cbn [d_dist d_pred d_col d_queue].
      rewrite (vget_some _ _ _ Edu). cbn [bind]. rewrite (vget_some _ _ _ Edv). cbn [bind].
      rewrite chk_ok by (unfold int_min in *; lia). cbn [bind].
      destruct (du + x <? dv)%Z; auto.
      rewrite vset_ok by (rewrite (b_ld _ _ _ B); lia). cbn [bind].
      rewrite vset_ok by (rewrite (b_lp _ _ _ B); lia). reflexivity. }
    destruct cv.
    + (* white *)
      destruct (b_white _ _ _ B v Ecv) as [Hvn Hdvm]. assert (dv = int_max) by congruence. subst dv.
      rewrite Hrelax. destruct (Z.ltb_spec (du + x) int_max) as [Hlt|H]; [|lia]. cbn [bind].
      cbn [d_col d_dist d_pred d_queue].
      rewrite vset_ok by (rewrite (b_lc _ _ _ B); lia). cbn [bind].
      eexists; split; [reflexivity|].
      apply improve with (dv := int_max); auto.
      * intros Hin. apply Hvn. apply in_app_iff; auto.
      * intros w. rewrite in_app_iff. simpl. intuition.
      * rewrite app_assoc. apply NoDup_app_iff. split; [apply B|].
        split; [repeat constructor; simpl; tauto|]. intros w Hw [ -> |[]]. tauto.
      * rewrite upd_length. apply (b_lc _ _ _ B).
      * rewrite upd_nth by (rewrite (b_lc _ _ _ B); lia). now rewrite Nat.eqb_refl.
      * intros w Hw. apply upd_other. congruence.
    + (* gray *)
      rewrite Hrelax. destruct (Z.ltb_spec (du + x) dv) as [Hlt|Hge].
      * destruct (b_gray _ _ _ B v Ecv) as [Hvq|Hvu]; [|inversion Hvu; subst v; rewrite Edu in Edv;
          inversion Edv; lia].
        eexists; split; [reflexivity|].
        apply improve with (dv := dv); auto.
        -- intros Hin. pose proof (b_nd _ _ _ B) as Hnd. apply NoDup_app_iff in Hnd as (_ & _ & Hd).
           apply (Hd v); auto.
        -- intros w. split; [auto|]. intros [H| ->]; auto.
        -- apply B.
        -- apply B.
      * eexists; split; [reflexivity|]. apply keep; auto; [|apply B].
        intros y da Hy Hda _. assert (y = x) by congruence. assert (da = du) by congruence. subst y da.
        split.
        -- destruct (b_gray _ _ _ B v Ecv) as [Hvq|Hvu]; [apply in_app_iff; auto|].
           inversion Hvu. apply in_app_iff. left. apply in_app_iff; simpl; auto.
        -- exists dv. split; auto.
    + (* black *)
      eexists; split; [reflexivity|]. apply keep; auto; [|apply B].
      destruct (b_black _ _ _ B v Ecv) as [Hvd|Hm]; [|unfold ok, is_false_at in Hok; congruence].
      intros y da Hy Hda _. assert (y = x) by congruence. assert (da = du) by congruence. subst y da.
      split; [apply in_app_iff; auto|]. exists dv. split; auto.
      apply in_app_iff in Hvd as [Hvd|[ -> |[]]]; [|assert (dv = du) by congruence; lia].
      specialize (Hle v dv du Hvd Edv Edu). lia.
Qed.

(** popping a vertex of least distance *)
Lemma pop_ok dn st u : inv dn st -> In u (d_queue st) ->
  (forall v d du, In v (d_queue st) -> nth_error (d_dist st) v = Some d ->
      nth_error (d_dist st) u = Some du -> (du <= d)%Z) ->
  inv_in dn u [] (mkD (d_col st) (d_dist st) (d_pred st) (remove1 u (d_queue st))).
Proof.
  intros (B & Hcl) Hu Hmin.
  pose proof (b_nd _ _ _ B) as Hnd. pose proof Hnd as Hnd0.
  apply NoDup_app_iff in Hnd as (Hnd1 & Hnd2 & Hdis).
  assert (Hin : forall w, In w ((dn ++ [u]) ++ remove1 u (d_queue st)) <-> In w (dn ++ d_queue st)).
  { intros w. rewrite !in_app_iff, remove1_In by auto. simpl.
    destruct (Nat.eq_dec w u) as [E|E]; [subst w; tauto|]. split; [|tauto].
    intros [[H|[H|[]]]|H]; [tauto|congruence|tauto]. }
  assert (Hun : ~ In u dn) by (intros H; apply (Hdis u); auto).
  destruct (b_reach _ _ _ B u) as (du & Edu & Ru & Hdu); [apply in_app_iff; auto|].
  assert (Hsin : In s (dn ++ [u])).
  { destruct (Nat.eq_dec u s) as [ -> |Hus]; [apply in_app_iff; simpl; auto|].
    destruct (b_pred _ _ _ B u) as (a & _ & _ & _ & _ & Ha & _); [apply in_app_iff; auto|auto|].
    destruct dn as [|d0 dn']; [destruct Ha|].
    destruct (Nat.eq_dec d0 s) as [ -> |Hd0]; [simpl; auto|]. exfalso.
    destruct (b_pred _ _ _ B d0) as (b & _ & _ & _ & Hb & _); [simpl; auto|auto|].
    apply (b_order _ _ _ B [] d0 dn' b eq_refl Hd0 Hb). }
  assert (Hlen : length (dn ++ [u]) = S (length dn)) by (rewrite app_length; simpl; lia).
  split; [|split; [auto|split; [|split; [|split]]]].
  - constructor; cbn [d_col d_dist d_pred d_queue]; try apply B.
    + apply NoDup_app_iff. split; [|split].
      * apply NoDup_app_iff. split; [auto|]. split; [repeat constructor; simpl; tauto|].
        intros w Hw [ -> |[]]; auto.
      * now apply remove1_NoDup.
      * intros w Hw Hw'. apply remove1_In in Hw' as [H1 H2]; auto.
        apply in_app_iff in Hw as [Hw|[Hw|[]]]; [apply (Hdis w); auto|congruence].
    + intros w Hw. apply Hin in Hw. apply (b_range _ _ _ B); auto.
    + apply Hin. apply (b_s _ _ _ B).
    + intros w Hw. apply Hin in Hw. apply (b_free _ _ _ B); auto.
    + intros w Hw. rewrite Hin. apply (b_white _ _ _ B w Hw).
    + intros w Hw. destruct (b_gray _ _ _ B w Hw) as [H|H]; [|discriminate].
      destruct (Nat.eq_dec w u) as [ -> |Hwu]; auto. left. apply remove1_In; auto.
    + intros w Hw. destruct (b_black _ _ _ B w Hw) as [H|H]; auto. left. apply in_app_iff; auto.
    + intros w Hw. apply remove1_In in Hw as [H1 H2]; auto. apply (b_queue _ _ _ B w H1).
    + intros w Hw Hcur. apply in_app_iff in Hw as [Hw|[ -> |[]]]; [|congruence].
      apply (b_done _ _ _ B w Hw). discriminate.
    + intros w Hw. apply Hin in Hw. destruct (b_reach _ _ _ B w Hw) as (d & H1 & H2 & H3).
      exists d. split; [auto|]. split; [auto|]. rewrite Hlen. lia.
    + intros a w da dw Ha Hw Eda Edw. apply remove1_In in Hw as [Hw Hwu]; auto.
      apply in_app_iff in Ha as [Ha|[ -> |[]]]; [eapply (b_mono _ _ _ B a w); eauto|].
      eapply Hmin; eauto.
    + intros w Hw Hws. apply Hin in Hw. destruct (b_pred _ _ _ B w Hw Hws) as (a & e & x & da & H1 & H2 & H3).
      exists a, e, x, da. split; [auto|]. split; [apply in_app_iff; auto|]. auto.
    + intros d1 w d2 a E Hws Ha.
      destruct (exists_last (l := w :: d2)) as (d2' & z & Ed2); [discriminate|].
      rewrite Ed2, app_assoc in E. apply app_inj_tail in E as [E Ez].
      destruct d2' as [|y d2'].
      * simpl in Ed2. inversion Ed2; subst. rewrite app_nil_r in *.
        destruct (b_pred _ _ _ B z) as (b & _ & _ & _ & H1 & H2 & _); [apply in_app_iff; auto|auto|].
        congruence.
      * simpl in Ed2. inversion Ed2; subst. eapply (b_order _ _ _ B); eauto.
  - intros a w e Ha Hje x da Hx Hda Hok. cbn [d_dist d_queue] in *. rewrite Hin.
    apply (Hcl a w e Ha Hje x da Hx Hda Hok).
  - intros w e [].
  - intros a da du' Ha Eda Edu'. cbn [d_dist] in *. eapply (b_mono _ _ _ B a u); eauto.
  - exists du. auto.
Qed.

(** finishing the vertex *)
Lemma finish_ok dn u st : inv_in dn u (out_edges g u) st ->
  inv (dn ++ [u]) (mkD (upd (d_col st) u Black) (d_dist st) (d_pred st) (d_queue st)).
Proof.
  intros (B & Hsin & Hcl & Hpe & Hle & Hdu).
  assert (Huin : In u (dn ++ [u])) by (apply in_app_iff; simpl; auto).
  assert (Hur : u < gn g) by (apply (b_range _ _ _ B); apply in_app_iff; auto).
  assert (Hcol : forall w, nth_error (upd (d_col st) u Black) w =
     if Nat.eqb u w then Some Black else nth_error (d_col st) w).
  { intros w. apply upd_nth. rewrite (b_lc _ _ _ B). auto. }
  assert (Huq : ~ In u (d_queue st)).
  { pose proof (b_nd _ _ _ B) as Hnd. apply NoDup_app_iff in Hnd as (_ & _ & Hd). intros H. apply (Hd u); auto. }
  split.
  - constructor; cbn [d_col d_dist d_pred d_queue]; try apply B.
    + rewrite upd_length. apply B.
    + intros w Hw. rewrite Hcol in Hw. destruct (Nat.eqb_spec u w); [congruence|]. apply (b_white _ _ _ B w Hw).
    + intros w Hw. rewrite Hcol in Hw. destruct (Nat.eqb_spec u w); [congruence|].
      destruct (b_gray _ _ _ B w Hw) as [H|H]; auto. congruence.
    + intros w Hw. rewrite Hcol in Hw. destruct (Nat.eqb_spec u w) as [ -> |]; auto.
      apply (b_black _ _ _ B w Hw).
    + intros w Hw. rewrite Hcol. destruct (Nat.eqb_spec u w) as [ -> |]; [tauto|]. apply (b_queue _ _ _ B w Hw).
    + intros w Hw _. rewrite Hcol. destruct (Nat.eqb_spec u w) as [ -> |]; auto.
      apply (b_done _ _ _ B w Hw). congruence.
  - intros v w e Hv Hj. apply in_app_iff in Hv as [Hv|[<-|[]]].
    + exact (Hcl v w e Hv Hj).
    + apply Hpe. now apply out_edges_In.
Qed.

(** the cut argument: a reachable vertex is finished, or some queue entry is as near *)
Lemma frontier dn st : inv dn st -> forall v z, reach v z ->
  (In v dn /\ exists d, nth_error (d_dist st) v = Some d /\ (d <= z)%Z) \/
  (exists y d, In y (d_queue st) /\ nth_error (d_dist st) y = Some d /\ (d <= z)%Z).
Proof.
  intros (B & Hcl) v z H. induction H as [|u v e x z Hr IH Hj Hx Hok].
  - pose proof (b_s _ _ _ B) as Hin. apply in_app_iff in Hin as [Hin|Hin].
    + left. split; auto. exists 0%Z. split; [apply (b_s0 _ _ _ B)|lia].
    + right. exists s, 0%Z. split; [auto|]. split; [apply (b_s0 _ _ _ B)|lia].
  - destruct (cost_ex e u v Hj) as (x0 & Ex0 & Hxb). assert (x0 = x) by congruence. subst x0.
    destruct IH as [(Hu & du & Edu & Hdu)|(y & d & Hy & Ed & Hd)].
    + destruct (Hcl u v e Hu Hj x du Hx Edu Hok) as (Hin & dv & Edv & Hdv).
      apply in_app_iff in Hin as [Hin|Hin].
      * left. split; auto. exists dv. split; auto. lia.
      * right. exists v, dv. split; [auto|]. split; auto. lia.
    + right. exists y, d. split; [auto|]. split; auto. lia.
Qed.

Lemma done_min dn st v d z : inv dn st -> In v dn -> nth_error (d_dist st) v = Some d ->
  reach v z -> (d <= z)%Z.
Proof.
  intros HI Hv Ed Hr. destruct (frontier dn st HI v z Hr) as [(_ & d' & E & H)|(y & dy & Hy & Edy & H)].
  - assert (d' = d) by congruence. lia.
  - destruct HI as [B _]. pose proof (b_mono _ _ _ B v y d dy Hv Hy Ed Edy). lia.
Qed.

Definition dpost (res : bool * dstate) : Prop :=
  exists dn, inv dn (snd res) /\
    if fst res then In t dn else d_queue (snd res) = [] /\ ~ In t dn.

Lemma dijkstra_loop_ok fuel : forall k dn st, inv dn st -> ~ In t dn ->
  gn g <= fuel + length dn ->
  exists r, dijkstra_loop fuel tb g c s t mark k st = Ok r /\ dpost r.
Proof.
  induction fuel as [|fuel IH]; intros k dn st HI Htn Hf; cbn [dijkstra_loop].
  - destruct (d_queue st) as [|q0 q] eqn:Eq.
    + eexists; split; [reflexivity|]. exists dn. split; [exact HI|]. cbn [fst snd]. auto.
    + exfalso. destruct HI as [B _]. pose proof (len_le _ _ _ B) as H. rewrite Eq in H. simpl in H. lia.
  - destruct (d_queue st) as [|q0 q] eqn:Eq.
    + eexists; split; [reflexivity|]. exists dn. split; [exact HI|]. cbn [fst snd]. auto.
    + rewrite <- Eq. set (u := tb s t mark k (d_dist st) (d_queue st)).
      pose proof (proj1 HI) as B. pose proof (len_le _ _ _ B) as Hlen. rewrite Eq in Hlen. simpl in Hlen.
      destruct (Htb s t mark k (d_dist st) (d_queue st)) as [Hu Hmin].
      { rewrite Eq. discriminate. }
      { intros v Hv. rewrite (b_ld _ _ _ B). apply (b_range _ _ _ B). apply in_app_iff; auto. }
      fold u in Hu, Hmin.
      pose proof (pop_ok dn st u HI Hu Hmin) as HI0.
      destruct (foldM_inv (visit_edge c mark u) (fun pe st => inv_in dn u pe st) (out_edges g u)
        (mkD (d_col st) (d_dist st) (d_pred st) (remove1 u (d_queue st)))) as (st1 & E1 & HI1).
      * exact HI0.
      * intros pe [v e] rest st' El HI'. apply visit_edge_ok; [auto| |lia].
        apply out_edges_In. rewrite El. apply in_app_iff; simpl; auto.
      * rewrite E1. cbn [bind].
        pose proof (proj1 HI1) as B1.
        assert (Hur : u < gn g) by (apply (b_range _ _ _ B); apply in_app_iff; auto).
        rewrite vset_ok by (rewrite (b_lc _ _ _ B1); lia). cbn [bind].
        pose proof (finish_ok dn u st1 HI1) as HI2.
        destruct (Nat.eqb_spec u t) as [Hut|Hut].
        -- eexists; split; [reflexivity|]. exists (dn ++ [u]). split; [auto|]. cbn [fst].
           rewrite Hut. apply in_app_iff; simpl; auto.
        -- apply IH with (dn := dn ++ [u]); auto.
           ++ rewrite in_app_iff. simpl. intuition.
           ++ rewrite app_length. simpl. lia.
Qed.

Lemma dijkstra_ok : exists r, dijkstra_blacklist tb g c s t mark = Ok r /\ dpost r.
Proof.
  unfold dijkstra_blacklist, num_vertices.
  rewrite vset_ok by (rewrite repeat_length; auto). cbn [bind].
  rewrite vset_ok by (rewrite repeat_length; auto). cbn [bind].
  apply dijkstra_loop_ok with (dn := []); [|simpl; tauto|simpl; lia].
  assert (Hd : forall w, nth_error (upd (repeat int_max (gn g)) s 0%Z) w =
     if Nat.eqb s w then Some 0%Z else nth_error (repeat int_max (gn g)) w).
  { intros w. apply upd_nth. now rewrite repeat_length. }
  assert (Hcl : forall w, nth_error (upd (repeat White (gn g)) s Gray) w =
     if Nat.eqb s w then Some Gray else nth_error (repeat White (gn g)) w).
  { intros w. apply upd_nth. now rewrite repeat_length. }
  split; [|intros v w e []].
  constructor; cbn [d_col d_dist d_pred d_queue app].
  - now rewrite upd_length, repeat_length.
  - now rewrite upd_length, repeat_length.
  - apply seq_length.
  - repeat constructor; simpl; tauto.
  - intros v [<-|[]]; auto.
  - now left.
  - rewrite Hd. now rewrite Nat.eqb_refl.
  - rewrite (nth_error_nth' _ 0) by (rewrite seq_length; auto). now rewrite seq_nth.
  - intros v [<-|[]]; auto.
  - intros v Hv. rewrite Hcl in Hv. rewrite Hd. destruct (Nat.eqb_spec s v); [discriminate|].
    split; [simpl; tauto|]. apply nth_error_repeat. apply nth_error_Some_lt in Hv. now rewrite repeat_length in Hv.
  - intros v Hv. rewrite Hcl in Hv. destruct (Nat.eqb_spec s v); [left; simpl; auto|].
    apply nth_error_In, repeat_spec in Hv. discriminate.
  - intros v Hv. rewrite Hcl in Hv. destruct (Nat.eqb_spec s v); [discriminate|].
    apply nth_error_In, repeat_spec in Hv. discriminate.
  - intros v [<-|[]]. rewrite Hcl. now rewrite Nat.eqb_refl.
  - intros v [].
  - intros v [<-|[]]. exists 0%Z. rewrite Hd, Nat.eqb_refl. split; [auto|]. split; [constructor|simpl; lia].
  - intros v w dv dw [].
  - intros v [<-|[]] H. congruence.
  - intros d1 v d2 u E. destruct d1; discriminate.
Qed.

(** ** the extracted path *)
Lemma path_loop_d dn st : inv dn st -> forall d1 v d2 n par rest,
  dn = d1 ++ v :: d2 -> nth_error (d_pred st) v = Some par -> length d1 <= n ->
  exists pre z, path_in_tree_loop n (d_pred st) v par (v :: rest) = Ok (pre ++ v :: rest) /\
    nth_error (d_dist st) v = Some z /\ any_cost g c (pre ++ [v]) z /\
    hd_error (pre ++ [v]) = Some s /\
    (forall w, In w pre -> In w d1) /\ NoDup pre /\
    (forall w, In w (tl (pre ++ [v])) -> ok w).
Proof.
  intros (B & Hcl).
  assert (Hall : forall m d1 v d2 n par rest, length d1 <= m ->
    dn = d1 ++ v :: d2 -> nth_error (d_pred st) v = Some par -> length d1 <= n ->
    exists pre z, path_in_tree_loop n (d_pred st) v par (v :: rest) = Ok (pre ++ v :: rest) /\
    nth_error (d_dist st) v = Some z /\ any_cost g c (pre ++ [v]) z /\
    hd_error (pre ++ [v]) = Some s /\
    (forall w, In w pre -> In w d1) /\ NoDup pre /\
    (forall w, In w (tl (pre ++ [v])) -> ok w)).
  { induction m as [|m IH]; intros d1 v d2 n par rest Hm Edn Hpar Hn.
    - assert (Hv : In v (dn ++ d_queue st)) by (rewrite Edn; apply in_app_iff; left; apply in_app_iff; simpl; auto).
      destruct d1 as [|]; [|simpl in Hm; lia].
      assert (v = s).
      { destruct (Nat.eq_dec v s); auto. exfalso. exact (b_order _ _ _ B [] v d2 par Edn n0 Hpar). }
      subst v. rewrite (b_ps _ _ _ B) in Hpar. inversion Hpar; subst par.
      exists [], 0%Z. split; [destruct n; cbn [path_in_tree_loop]; rewrite Nat.eqb_refl; reflexivity|].
      split; [apply B|]. split; [constructor|]. split; [reflexivity|]. split; [intros w []|].
      split; [constructor|]. intros w [].
    - assert (Hv : In v (dn ++ d_queue st)) by (rewrite Edn; apply in_app_iff; left; apply in_app_iff; simpl; auto).
      destruct (Nat.eq_dec v s) as [ -> |Hvs].
      { rewrite (b_ps _ _ _ B) in Hpar. inversion Hpar; subst par.
        exists [], 0%Z. split; [destruct n; cbn [path_in_tree_loop]; rewrite Nat.eqb_refl; reflexivity|].
        split; [apply B|]. split; [constructor|]. split; [reflexivity|]. split; [intros w []|].
        split; [constructor|]. intros w []. }
      pose proof (b_order _ _ _ B d1 v d2 par Edn Hvs Hpar) as Hin.
      destruct (b_pred _ _ _ B v Hv Hvs) as (u & e & x & du & H1 & H2 & H3 & H4 & H5 & H6).
      assert (u = par) by congruence. subst u.
      pose proof (b_nd _ _ _ B) as Hnd. apply NoDup_app_iff in Hnd as (Hnd & _ & _).
      assert (Hvd1 : ~ In v d1).
      { rewrite Edn in Hnd. apply NoDup_remove_2 in Hnd. rewrite in_app_iff in Hnd. tauto. }
      assert (Hpv : par <> v) by (intros ->; auto).
      destruct n as [|n]; [destruct d1; [destruct Hin|simpl in Hn; lia]|].
      cbn [path_in_tree_loop]. destruct (Nat.eqb_spec par v) as [|_]; [congruence|].
      apply in_split in Hin as (a1 & a2 & Ed1).
      assert (Hpr : par < length (d_pred st)).
      { rewrite (b_lp _ _ _ B). apply (b_range _ _ _ B). apply in_app_iff; auto. }
      destruct (vget_ok (d_pred st) par Hpr) as (par' & Ep & Enp). rewrite Ep. cbn [bind].
      rewrite Ed1, app_length in Hm, Hn. simpl in Hm, Hn.
      destruct (IH a1 par (a2 ++ v :: d2) n par' (v :: rest)) as (pre & z & E & Ez & Hac & Hh & Hpi & Hpn & Hpo);
        [lia| |auto|lia|].
      { rewrite Edn, Ed1, <- app_assoc. reflexivity. }
      assert (z = du) by congruence. subst z.
      assert (Hokv : ok v) by (destruct (b_free _ _ _ B v Hv); [congruence|auto]).
      exists (pre ++ [par]), (du + x)%Z. rewrite E. rewrite <- !app_assoc. cbn [app].
      split; [reflexivity|]. split; [auto|]. split.
      { clear - Hac H3 H4. revert Hac. generalize du. induction pre as [|a pre IHp]; intros d0 Hac.
        - simpl in *. inversion Hac; subst. replace (0 + x)%Z with (x + 0)%Z by lia.
          econstructor; eauto. constructor.
        - destruct pre as [|b pre]; simpl in *; inversion Hac; subst.
          + replace (x0 + z + x)%Z with (x0 + (z + x))%Z by lia. econstructor; eauto.
          + replace (x0 + z + x)%Z with (x0 + (z + x))%Z by lia. econstructor; eauto. }
      split; [destruct pre; simpl in *; auto|].
      split.
      { intros w Hw. rewrite Ed1, in_app_iff. apply in_app_iff in Hw as [Hw|[<-|[]]]; [left; auto|simpl; auto]. }
      split.
      { apply NoDup_app_iff. split; [auto|]. split; [repeat constructor; simpl; tauto|].
        intros w Hw [<-|[]]. apply Hpi in Hw. rewrite Edn, Ed1 in Hnd. rewrite <- app_assoc in Hnd.
        cbn [app] in Hnd. apply NoDup_remove_2 in Hnd. apply Hnd. apply in_app_iff; auto. }
      intros w Hw.
      assert (Hw' : In w (tl (pre ++ [par])) \/ w = v).
      { destruct pre as [|a pre]; cbn [app tl] in *; [destruct Hw as [Hw|[]]; auto|].
        rewrite in_app_iff in *. cbn [In] in *. tauto || intuition. }
      destruct Hw' as [Hw'| ->]; auto. }
  intros d1 v d2 n par rest. apply (Hall (length d1)). auto.
Qed.

Lemma any_cost_reach w z v : any_cost g c w z -> path_via ok s v w -> reach v z.
Proof.
  intros Hac (Hh & Hl & Hok).
  assert (G : forall w z, any_cost g c w z -> forall a z0, hd_error w = Some a -> reach a z0 ->
     (forall x, In x (tl w) -> ok x) -> reach (last w s) (z0 + z)%Z).
  { clear. induction 1 as [u|u v w e x z Hj Hx Hac IH]; intros a z0 Hh Hr Hok.
    - simpl in *. inversion Hh; subst. now rewrite Z.add_0_r.
    - cbn [hd_error] in Hh. inversion Hh; subst a. cbn [tl] in Hok.
      replace (last (u :: v :: w) s) with (last (v :: w) s) by reflexivity.
      replace (z0 + (x + z))%Z with ((z0 + x) + z)%Z by lia.
      apply IH with (a := v); auto.
      + econstructor; eauto. apply Hok. now left.
      + intros y Hy. apply Hok. now right. }
  rewrite <- Hl. replace z with (0 + z)%Z by lia. eapply G; eauto. constructor.
Qed.

Lemma any_cost_exists w : is_walk g w -> w <> [] -> exists z, any_cost g c w z.
Proof.
  induction 1 as [|u|u v w [e He] Hw IH]; intros Hne; [congruence|exists 0%Z; constructor|].
  destruct IH as [z Hz]; [discriminate|]. destruct (cost_ex e u v He) as (x & Hx & _).
  exists (x + z)%Z. econstructor; eauto.
Qed.

Lemma any_cost_walk w z : any_cost g c w z -> is_walk g w.
Proof. induction 1; constructor; auto. eexists; eauto. Qed.

Context (Ht : t < gn g).

Theorem dijkstra_spec : exists found st, dijkstra_blacklist tb g c s t mark = Ok (found, st) /\
  if found : bool then
    exists path z, path_in_tree_from_parents (d_pred st) t = Ok path /\
      path_via ok s t path /\ NoDup path /\ any_cost g c path z /\
      Forall (fun v => v < gn g) path /\
      nth_error (d_dist st) t = Some z /\
      forall w z', path_via ok s t w -> any_cost g c w z' -> (z <= z')%Z
  else forall w, is_walk g w -> path_via ok s t w -> False.
Proof.
  destruct dijkstra_ok as ([found st] & E & dn & HI & H). cbn [fst snd] in *.
  exists found, st. split; [exact E|]. destruct found.
  - pose proof (proj1 HI) as B.
    apply in_split in H as (d1 & d2 & Edn).
    unfold path_in_tree_from_parents.
    destruct (vget_ok (d_pred st) t) as (par & Ep & Enp); [rewrite (b_lp _ _ _ B); auto|].
    rewrite Ep. cbn [bind].
    pose proof (len_le _ _ _ B) as Hlen.
    destruct (path_loop_d dn st HI d1 t d2 (S (length (d_pred st))) par [] Edn Enp)
      as (pre & z & Epath & Ez & Hac & Hh & Hpi & Hpn & Hpo).
    { rewrite (b_lp _ _ _ B). rewrite Edn, app_length in Hlen. simpl in Hlen. lia. }
    exists (pre ++ [t]), z. split; [exact Epath|].
    split; [split; [auto|split; [apply last_last|auto]]|].
    pose proof (b_nd _ _ _ B) as Hnd. apply NoDup_app_iff in Hnd as (Hnd & _ & _).
    split.
    { apply NoDup_app_iff. split; [auto|]. split; [repeat constructor; simpl; tauto|].
      intros w Hw [<-|[]]. apply Hpi in Hw. rewrite Edn in Hnd. apply NoDup_remove_2 in Hnd.
      apply Hnd. apply in_app_iff; auto. }
    split; [auto|]. split.
    { apply Forall_app. split; [|repeat constructor; auto]. apply Forall_forall.
      intros w Hw. apply (b_range _ _ _ B). apply in_app_iff. left. rewrite Edn. apply in_app_iff; auto. }
    split; [auto|].
    intros w z' Hvia Hac'. eapply done_min; eauto.
    + rewrite Edn. apply in_app_iff; simpl; auto.
    + eapply any_cost_reach; eauto.
  - destruct H as [Hq Hn]. intros w Hw Hvia.
    assert (Hne : w <> []) by (intros ->; destruct Hvia as [H _]; discriminate).
    destruct (any_cost_exists w Hw Hne) as [z Hz].
    pose proof (any_cost_reach w z t Hz Hvia) as Hr.
    destruct (frontier dn st HI t z Hr) as [(Hin & _)|(y & d & Hy & _)]; [auto|].
    rewrite Hq in Hy. destruct Hy.
Qed.
End Dij.

(** A concrete tie-breaking: the first queue element of least distance. *)
Definition pick_first : tiebreak := fun _ _ _ _ dist q =>
  fold_left (fun b v => match nth_error dist v, nth_error dist b with
                        | Some x, Some y => if (x <? y)%Z then v else b
                        | _, _ => b end) q (hd 0 q).

Lemma pick_first_good : good_pick pick_first.
Proof.
  intros s t mark k dist q Hq Hr. unfold pick_first.
  destruct q as [|q0 q]; [congruence|]. cbn [hd].
  assert (G : forall l b, (b < length dist) -> (forall v, In v l -> v < length dist) ->
    let r := fold_left (fun b v => match nth_error dist v, nth_error dist b with
                        | Some x, Some y => if (x <? y)%Z then v else b
                        | _, _ => b end) l b in
    (r = b \/ In r l) /\ r < length dist /\
    forall v d dr, (v = b \/ In v l) -> nth_error dist v = Some d -> nth_error dist r = Some dr -> (dr <= d)%Z).
  { induction l as [|x l IH]; intros b Hb Hl.
    - simpl. split; [auto|]. split; [auto|]. intros v d dr [ -> |[]] H1 H2. assert (d = dr) by congruence. lia.
    - cbn [fold_left].
      destruct (nth_error dist x) as [dx|] eqn:Ex; [|apply nth_error_None in Ex; specialize (Hl x (or_introl eq_refl)); lia].
      destruct (nth_error dist b) as [db|] eqn:Eb; [|apply nth_error_None in Eb; lia].
      set (b' := if (dx <? db)%Z then x else b).
      assert (Hb' : b' < length dist) by (unfold b'; destruct (dx <? db)%Z; auto; apply Hl; now left).
      destruct (IH b' Hb') as (H1 & H2 & H3); [intros v Hv; apply Hl; now right|].
      split.
      { destruct H1 as [H1|H1]; [|simpl; auto]. rewrite H1. unfold b'. destruct (dx <? db)%Z; simpl; auto. }
      split; [exact H2|].
      intros v d dr Hv Ed Edr.
      assert (Hbd : exists d', nth_error dist b' = Some d' /\ (d' <= dx)%Z /\ (d' <= db)%Z).
      { unfold b'. destruct (Z.ltb_spec dx db); [exists dx|exists db]; (split; [auto|lia]). }
      destruct Hbd as (d' & Ed' & L1 & L2).
      pose proof (H3 b' d' dr (or_introl eq_refl) Ed' Edr).
      destruct Hv as [ -> |[ -> |Hv]].
      + assert (d = db) by congruence. lia.
      + assert (d = dx) by congruence. lia.
      + apply (H3 v d dr); auto. }
  destruct (G (q0 :: q) q0) as (H1 & H2 & H3); [apply Hr; now left|auto|].
  split; [destruct H1 as [ -> |H1]; [now left|auto]|].
  intros v d du Hv Ed Edu. apply (H3 v d du); auto.
Qed.
