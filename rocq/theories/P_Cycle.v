(** * P_Cycle: isSimpleCycle *)
From Coq Require Import Permutation.
From Verif Require Import Base Graph Spec Spec_Cycle M_Graph M_Solution P_Base.
Open Scope nat_scope.

(** neighbours of [v] over the edges [es] *)
Definition edge_adj (g : graph) (v e : nat) : list nat :=
  match nth_error (ge g) e with Some p => adj_of v p | None => [] end.
Definition enbrs (g : graph) (es : list nat) (v : nat) : list nat := flat_map (edge_adj g v) es.

Definition no_loops (g : graph) (es : list nat) : Prop :=
  forall e u v, In e es -> joins g e u v -> u <> v.

Lemma enbrs_cons g e es v : enbrs g (e :: es) v = edge_adj g v e ++ enbrs g es v.
Proof. reflexivity. Qed.

Lemma enbrs_perm g es es' v : Permutation es es' -> Permutation (enbrs g es v) (enbrs g es' v).
Proof. intros H. unfold enbrs. now apply Permutation_flat_map. Qed.

Lemma adj_of_noloop v a b : a <> b ->
  adj_of v (a, b) = if Nat.eqb v a then [b] else if Nat.eqb v b then [a] else [].
Proof.
  intros H. unfold adj_of; cbn [fst snd]. rewrite (Nat.eqb_sym a v), (Nat.eqb_sym b v).
  destruct (Nat.eqb_spec v a), (Nat.eqb_spec v b); subst; auto; congruence.
Qed.

Lemma adj_of_swap v a b : a <> b -> adj_of v (a, b) = adj_of v (b, a).
Proof.
  intros H. rewrite !adj_of_noloop by auto.
  destruct (Nat.eqb_spec v a), (Nat.eqb_spec v b); subst; auto; congruence.
Qed.

Lemma vc_push2 m a b v : a <> b ->
  vc_push (vc_push m a b) b a v = m v ++ adj_of v (a, b).
Proof.
  intros H. rewrite adj_of_noloop by auto. unfold vc_push.
  destruct (Nat.eqb_spec v b), (Nat.eqb_spec v a); subst; auto; try congruence.
  now rewrite app_nil_r.
Qed.

Lemma cycle_count_spec g es : Forall (fun e => e < length (ge g)) es -> forall m,
  exists om, cycle_count g es m = Ok om /\
  match om with
  | Some m' => (forall v, m' v = m v ++ enbrs g es v) /\ no_loops g es /\
               (forall v, length (m v) <= 2 -> length (m' v) <= 2)
  | None => (exists e u, In e es /\ joins g e u u) \/
            (exists v, 2 < length (m v ++ enbrs g es v))
  end.
Proof.
  induction 1 as [|e es He Hes IH]; intros m.
  - eexists; split; [reflexivity|]. split; [intros v; now rewrite app_nil_r|]. split; auto.
    intros e u v [].
  - cbn [cycle_count]. unfold endpoints.
    destruct (nth_error (ge g) e) as [[a b]|] eqn:E;
      [|apply nth_error_None in E; lia]. cbn [bind].
    destruct (Nat.eqb_spec a b) as [->|Hne].
    { eexists; split; [reflexivity|]. left. exists e, b. split; [now left|now left]. }
    set (m1 := vc_push (vc_push m a b) b a).
    assert (Hm1 : forall v, m1 v = m v ++ edge_adj g v e).
    { intros v. unfold m1, edge_adj. rewrite E. now apply vc_push2. }
    destruct (orb _ _) eqn:Eo.
    + eexists; split; [reflexivity|]. right. apply orb_true_iff in Eo as [Eo|Eo]; apply Nat.ltb_lt in Eo.
      * exists a. rewrite enbrs_cons, app_assoc, <- Hm1, app_length. lia.
      * exists b. rewrite enbrs_cons, app_assoc, <- Hm1, app_length. lia.
    + apply orb_false_iff in Eo as [Ea Eb]. apply Nat.ltb_ge in Ea. apply Nat.ltb_ge in Eb.
      destruct (IH m1) as (om & Eq & Hom). exists om. split; auto. destruct om as [m'|].
      * destruct Hom as (H1 & H2 & H3). split; [|split].
        -- intros v. rewrite H1, Hm1, enbrs_cons, app_assoc. auto.
        -- intros f u v [<-|Hin] Hj.
           ++ destruct Hj as [Hj|Hj]; rewrite E in Hj; inversion Hj; subst; auto.
           ++ eapply H2; eauto.
        -- intros v Hv. apply H3.
           destruct (Nat.eq_dec v a) as [->|Ha]; auto. destruct (Nat.eq_dec v b) as [->|Hb]; auto.
           rewrite Hm1. unfold edge_adj. rewrite E, adj_of_noloop by auto.
           destruct (Nat.eqb_spec v a), (Nat.eqb_spec v b); try congruence. rewrite app_nil_r. auto.
      * destruct Hom as [(f & u & Hf & Hj)|(v & Hv)].
        -- left. exists f, u. split; [now right|auto].
        -- right. exists v. rewrite enbrs_cons, app_assoc, <- Hm1. auto.
Qed.

Lemma edge_adj_In g v e u : In u (edge_adj g v e) <-> joins g e v u.
Proof.
  unfold edge_adj, joins. destruct (nth_error (ge g) e) as [[a b]|].
  - unfold adj_of; cbn [fst snd]. rewrite in_app_iff.
    assert (H1 : In u (if Nat.eqb a v then [b] else []) <-> a = v /\ b = u).
    { destruct (Nat.eqb_spec a v); cbn [In]; intuition congruence. }
    assert (H2 : In u (if Nat.eqb b v then [a] else []) <-> b = v /\ a = u).
    { destruct (Nat.eqb_spec b v); cbn [In]; intuition congruence. }
    rewrite H1, H2. intuition congruence.
  - simpl. split; [tauto|]. intros [H|H]; discriminate.
Qed.

Lemma enbrs_In g es v u : In u (enbrs g es v) <-> exists e, In e es /\ joins g e v u.
Proof.
  unfold enbrs. rewrite in_flat_map. split; intros (e & H1 & H2); exists e; split; auto;
    now apply edge_adj_In.
Qed.

Definition cnt (l : list nat) (x : nat) : nat := count_occ Nat.eq_dec l x.

Lemma cnt_sym g es : no_loops g es -> forall u v, cnt (enbrs g es u) v = cnt (enbrs g es v) u.
Proof.
  intros Hnl u v. induction es as [|e es IH]; auto.
  rewrite !enbrs_cons. unfold cnt in *. rewrite !count_occ_app, IH.
  2:{ intros f x y Hf. apply Hnl. now right. }
  f_equal. unfold edge_adj. destruct (nth_error (ge g) e) as [[a b]|] eqn:E; auto.
  assert (Hab : a <> b). { apply (Hnl e); [now left|now left]. }
  rewrite !adj_of_noloop by auto.
  destruct (Nat.eqb_spec u a), (Nat.eqb_spec u b), (Nat.eqb_spec v a), (Nat.eqb_spec v b);
    subst; simpl; auto; try congruence;
    repeat match goal with |- context [Nat.eq_dec ?x ?y] => destruct (Nat.eq_dec x y) end; congruence.
Qed.

Lemma enbrs_irrefl g es : no_loops g es -> forall u, ~ In u (enbrs g es u).
Proof. intros Hnl u H. apply enbrs_In in H as (e & H1 & H2). exact (Hnl e u u H1 H2 eq_refl). Qed.

(** ** the walk of the while loop, when it comes back *)
Inductive traj (m : vcount) (s : nat) : nat -> list nat -> Prop :=
| traj_end : forall prev, traj m s prev [s]
| traj_step : forall prev cur next w, cur <> s -> Permutation (m cur) [prev; next] ->
    traj m s cur (next :: w) -> traj m s prev (cur :: next :: w).

Lemma cycle_walk_traj m s : (forall u v, In u (m v) -> In v (m u)) ->
  forall n i prev cur k, In prev (m cur) ->
  cycle_walk m s n i prev cur = Some k -> k < i + n ->
  exists w, traj m s prev (cur :: w) /\ length w = k - i /\ i <= k.
Proof.
  intros Hsym. induction n as [|n IH]; intros i prev cur k Hp H Hk; cbn [cycle_walk] in H.
  - destruct (Nat.eqb_spec cur s); inversion H; lia.
  - destruct (Nat.eqb_spec cur s) as [->|Hne].
    + inversion H; subst. exists []. split; [constructor|]. simpl; lia.
    + destruct (m cur) as [|a [|b [|? ?]]] eqn:Em; try discriminate.
      set (next := if Nat.eqb a prev then b else a) in *.
      assert (HP : Permutation (m cur) [prev; next]).
      { rewrite Em. unfold next. destruct (Nat.eqb_spec a prev) as [->|Ha]; auto.
        destruct Hp as [Hp|[Hp|[]]]; [congruence|]. subst b. apply perm_swap. }
      assert (Hn : In cur (m next)).
      { apply Hsym. apply (Permutation_in next (Permutation_sym HP)). simpl; auto. }
      destruct (IH _ _ _ _ Hn H) as (w & Hw & Hl & Hi); [lia|].
      exists (next :: w). split; [constructor; auto|]. cbn [length]. lia.
Qed.

(** positions of a trajectory *)
Lemma traj_pos m s prev w : traj m s prev w -> forall j x y z,
  nth_error (prev :: w) j = Some x -> nth_error (prev :: w) (S j) = Some y ->
  nth_error (prev :: w) (S (S j)) = Some z -> y <> s /\ Permutation (m y) [x; z].
Proof.
  induction 1 as [prev|prev cur next w Hne HP Ht IH]; intros j x y z H1 H2 H3.
  - destruct j; simpl in H3; [discriminate|destruct j; discriminate].
  - destruct j as [|j].
    + simpl in *. inversion H1; inversion H2; inversion H3; subst. auto.
    + apply (IH j); auto.
Qed.

Lemma traj_end_s m s prev w : traj m s prev w -> exists vs, w = vs ++ [s] /\ ~ In s vs.
Proof.
  induction 1 as [prev|prev cur next w Hne HP Ht (vs & E & Hn)].
  - exists []. auto.
  - exists (cur :: vs). rewrite E. split; auto. intros [H|H]; congruence.
Qed.

Section Distinct.
Context (m : vcount) (s : nat) (w vs : list nat).
Context (Hsym : forall u v, cnt (m u) v = cnt (m v) u) (Hirr : forall u, ~ In u (m u)).
Context (Ht : traj m s s w) (Ew : w = vs ++ [s]) (Hns : ~ In s vs).

Lemma pos_ex j : j <= S (length vs) -> exists x, nth_error (s :: w) j = Some x.
Proof.
  intros H. destruct (nth_error (s :: w) j) eqn:E; eauto. apply nth_error_None in E.
  rewrite Ew in E. cbn [length] in E. rewrite app_length in E. simpl in E. lia.
Qed.

Lemma pos_interior j x : 1 <= j <= length vs -> nth_error (s :: w) j = Some x -> x <> s.
Proof.
  intros Hj H. destruct j as [|j]; [lia|]. simpl in H. rewrite Ew, nth_error_app1 in H by lia.
  intros ->. apply Hns. eapply nth_error_In; eauto.
Qed.

Lemma traj_distinct k : k <= length vs -> forall j x, j < k ->
  nth_error (s :: w) j = Some x -> nth_error (s :: w) k = Some x -> False.
Proof.
  induction k as [k IH] using lt_wf_ind. intros Hk j x Hj Hx1 Hx2.
  destruct j as [|j].
  { simpl in Hx1. inversion Hx1; subst x. apply (pos_interior k s); [lia|auto|auto]. }
  destruct (pos_ex j) as [p Hp]; [lia|].
  destruct (pos_ex (S (S j))) as [q Hq]; [lia|].
  destruct (traj_pos m s s w Ht j p x q Hp Hx1 Hq) as [_ HP].
  destruct (Nat.eq_dec k (S (S j))) as [->|Hk2].
  { rewrite Hx2 in Hq. inversion Hq; subst q. apply (Hirr x).
    apply (Permutation_in x (Permutation_sym HP)). simpl; auto. }
  destruct k as [|k]; [lia|].
  destruct k as [|k]; [lia|].
  destruct (pos_ex (S k)) as [p' Hp']; [lia|].
  destruct (pos_ex (S (S (S k)))) as [q' Hq']; [lia|].
  destruct (traj_pos m s s w Ht (S k) p' x q' Hp' Hx2 Hq') as [_ HP'].
  assert (Hin : In p' [p; q]).
  { apply (Permutation_in p' HP). apply (Permutation_in p' (Permutation_sym HP')). simpl; auto. }
  destruct Hin as [->|[->|[]]].
  - apply (IH (S k)) with (j := j) (x := p'); auto; lia.
  - destruct (Nat.eq_dec (S k) (S (S j))) as [E|Hne].
    + inversion E; subst k. rewrite Hq in Hp'. clear E.
      (* x, q, x : q has x on both sides *)
      destruct (traj_pos m s s w Ht (S j) x p' x Hx1 Hq Hx2) as [_ HPq].
      assert (C1 : cnt (m p') x = 2).
      { unfold cnt. rewrite (Permutation_count_occ Nat.eq_dec) in HPq. rewrite HPq. simpl.
        destruct (Nat.eq_dec x x); congruence. }
      assert (C2 : cnt (m x) p' = 2) by (rewrite Hsym; auto).
      assert (Hpp : p = p').
      { unfold cnt in C2. pose proof (proj1 (Permutation_count_occ Nat.eq_dec _ _) HP p') as C3.
        rewrite C2 in C3. simpl in C3. destruct (Nat.eq_dec p p'); auto.
        destruct (Nat.eq_dec p' p'); try congruence; try lia. }
      subst p. apply (IH (S (S j))) with (j := j) (x := p'); auto; lia.
    + apply (IH (S k)) with (j := S (S j)) (x := p'); auto; lia.
Qed.

Lemma traj_nodup : NoDup (s :: vs).
Proof.
  apply NoDup_nth_error. intros i j Hi E.
  assert (Hpos : forall q, q < length (s :: vs) -> nth_error (s :: w) q = nth_error (s :: vs) q).
  { intros q Hq. rewrite Ew. change (s :: vs ++ [s]) with ((s :: vs) ++ [s]).
    apply nth_error_app1. auto. }
  assert (Hj : j < length (s :: vs)). { apply nth_error_Some. rewrite <- E. apply nth_error_Some. auto. }
  cbn [length] in Hi, Hj.
  destruct (nth_error (s :: vs) i) as [x|] eqn:Ei; [|apply nth_error_None in Ei; simpl in Ei; lia].
  destruct (lt_eq_lt_dec i j) as [[H|H]|H]; auto; exfalso.
  - apply (traj_distinct j) with (j := i) (x := x); try lia; rewrite Hpos; simpl; auto; lia.
  - apply (traj_distinct i) with (j := j) (x := x); try lia; rewrite Hpos; simpl; auto; lia.
Qed.
End Distinct.

(** ** trails *)
Lemma trail_length g w es : trail g w es -> length w = S (length es).
Proof. induction 1; simpl in *; auto. Qed.

Lemma trail_walk g w es : trail g w es -> is_walk g w.
Proof. induction 1; constructor; auto. exists e; auto. Qed.

Lemma trail_inv2 g u v w es : trail g (u :: v :: w) es ->
  exists e es', es = e :: es' /\ joins g e u v /\ trail g (v :: w) es'.
Proof. intros H. inversion H; subst. eauto. Qed.

Lemma trail_join g a x b e1 e2 : trail g (a ++ [x]) e1 -> trail g (x :: b) e2 ->
  trail g (a ++ x :: b) (e1 ++ e2).
Proof.
  revert e1. induction a as [|y t IH]; simpl; intros e1 H1 H2.
  - inversion H1; subst. auto.
  - destruct t as [|z t]; simpl in *.
    + apply trail_inv2 in H1 as (e & es' & -> & Hj & H1). inversion H1; subst. simpl. constructor; auto.
    + apply trail_inv2 in H1 as (e & es' & -> & Hj & H1). simpl. constructor; auto.
Qed.

Lemma trail_split g a x b es : trail g (a ++ x :: b) es ->
  exists e1 e2, es = e1 ++ e2 /\ trail g (a ++ [x]) e1 /\ trail g (x :: b) e2.
Proof.
  revert es. induction a as [|y t IH]; simpl; intros es H.
  - exists [], es. split; auto. split; auto. constructor.
  - destruct t as [|z t]; simpl in *.
    + apply trail_inv2 in H as (e & es' & -> & Hj & H). exists [e], es'. split; auto. split; auto.
      constructor; auto. constructor.
    + apply trail_inv2 in H as (e & es' & -> & Hj & H). apply IH in H as (e1 & e2 & -> & H1 & H2).
      exists (e :: e1), e2. split; auto. split; auto. constructor; auto.
Qed.

Lemma trail_rev g w es : trail g w es -> trail g (rev w) (rev es).
Proof.
  induction 1 as [u|u v w e es Hj Ht IH]; [constructor|].
  cbn [rev] in *. rewrite <- app_assoc. simpl. apply trail_join; auto.
  constructor; [now apply joins_sym|constructor].
Qed.

Lemma trail_nth g w es : trail g w es -> forall i u v e,
  nth_error w i = Some u -> nth_error w (S i) = Some v -> nth_error es i = Some e -> joins g e u v.
Proof.
  induction 1 as [x|x y w e0 es Hj Ht IH]; intros i u v e Hu Hv He.
  - destruct i; discriminate.
  - destruct i as [|i].
    + simpl in *. inversion Hu; inversion Hv; inversion He; subst. auto.
    + apply (IH i); auto.
Qed.

Lemma trail_In_split g w es e : trail g w es -> In e es ->
  exists a x y b, w = a ++ x :: y :: b /\ joins g e x y.
Proof.
  induction 1 as [u|u v w e0 es Hj Ht IH]; intros Hin; [destruct Hin|].
  destruct Hin as [->|Hin].
  - exists [], u, v, w. auto.
  - destruct (IH Hin) as (a & x & y & b & E & H). exists (u :: a), x, y, b. rewrite E. auto.
Qed.

(** ** rotating a closed tour with its edges *)
Lemma rotate_trail g r m t es a x b : closed_tour g r m t -> trail g t es ->
  t = a ++ x :: b -> b <> [] ->
  exists es', closed_tour g x m ((x :: b) ++ tl (a ++ [x])) /\
    trail g ((x :: b) ++ tl (a ++ [x])) es' /\ Permutation es es' /\
    Permutation (removelast t) (removelast ((x :: b) ++ tl (a ++ [x]))).
Proof.
  intros (vs & Et & Hnd & Hl & Hw & Hf) Htr Es Hb.
  destruct a as [|r' a].
  - cbn [app] in Es. exists es.
    replace ((x :: b) ++ tl ([] ++ [x])) with t by (cbn [app tl]; now rewrite app_nil_r).
    assert (x = r) by congruence. subst x. split; [exists vs; auto|]. auto.
  - simpl in Es. assert (r' = r) by congruence. subst r'.
    destruct (exists_last Hb) as (b' & z & ->).
    assert (E : vs ++ [r] = (a ++ x :: b') ++ [z]).
    { rewrite <- app_assoc. simpl. congruence. }
    apply app_inj_tail in E as [Evs Ez]. subst z vs.
    rewrite Es in Htr. change (r :: a ++ x :: b' ++ [r]) with ((r :: a) ++ x :: b' ++ [r]) in Htr.
    apply trail_split in Htr as (e1 & e2 & -> & T1 & T2).
    cbn [app tl] in *.
    assert (Ht' : trail g ((x :: b') ++ r :: (a ++ [x])) (e2 ++ e1)).
    { apply trail_join; auto. }
    cbn [app] in Ht'.
    exists (e2 ++ e1).
    replace (x :: (b' ++ [r]) ++ a ++ [x]) with (x :: b' ++ r :: a ++ [x])
      by (rewrite <- app_assoc; reflexivity).
    assert (HP : Permutation (r :: a ++ x :: b') (x :: b' ++ r :: a)).
    { change (r :: a ++ x :: b') with ((r :: a) ++ (x :: b')). apply Permutation_app_comm. }
    split; [|split; [auto|split]].
    + exists (b' ++ r :: a). split; [rewrite <- app_assoc; reflexivity|].
      split; [eapply Permutation_NoDup; eauto|]. split.
      * rewrite app_length in *. simpl in *. lia.
      * split; [eapply trail_walk; eauto|].
        rewrite Forall_forall in *. intros v Hv. apply Hf. rewrite Et. simpl in *.
        rewrite !in_app_iff in *. simpl in *. rewrite in_app_iff in Hv. simpl in Hv. tauto.
    + apply Permutation_app_comm.
    + rewrite Es. replace (r :: a ++ x :: b' ++ [r]) with ((r :: a ++ x :: b') ++ [r])
        by (cbn [app]; now rewrite <- app_assoc).
      replace (x :: b' ++ r :: a ++ [x]) with ((x :: b' ++ r :: a) ++ [x])
        by (cbn [app]; now rewrite <- app_assoc).
      rewrite !removelast_snoc. auto.
Qed.

Lemma reverse_trail g r m t es : closed_tour g r m t -> trail g t es ->
  closed_tour g r m (rev t) /\ trail g (rev t) (rev es) /\
  Permutation (removelast t) (removelast (rev t)).
Proof.
  intros (vs & Et & Hnd & Hl & Hw & Hf) Htr.
  assert (Er : rev t = r :: rev vs ++ [r]).
  { rewrite Et. cbn [rev]. rewrite rev_app_distr. reflexivity. }
  split; [|split].
  - exists (rev vs). split; auto. split.
    + inversion Hnd; subst. constructor; [rewrite <- in_rev; auto|now apply NoDup_rev].
    + rewrite rev_length. split; auto. split; [now apply is_walk_rev|].
      apply Forall_rev. auto.
  - now apply trail_rev.
  - rewrite Er, Et, !removelast_cons_snoc. constructor. apply Permutation_rev.
Qed.

(** the tour written so that its first step is a given edge, in a given direction *)
Lemma orient_trail g r m t es e s c : closed_tour g r m t -> trail g t es -> In e es ->
  nth_error (ge g) e = Some (s, c) ->
  exists w es', closed_tour g s m (s :: c :: w) /\ trail g (s :: c :: w) es' /\
    Permutation es es' /\ Permutation (removelast t) (removelast (s :: c :: w)).
Proof.
  intros Hc Ht Hin He.
  destruct (trail_In_split g t es e Ht Hin) as (a & x & y & b & Et & Hj).
  assert (Hd : (x = s /\ y = c) \/ (x = c /\ y = s)).
  { destruct Hj as [Hj|Hj]; rewrite He in Hj; inversion Hj; subst; auto. }
  destruct Hd as [[-> ->]|[-> ->]].
  - destruct (rotate_trail g r m t es a s (c :: b) Hc Ht Et) as (es' & H1 & H2 & H3 & H4);
      [discriminate|].
    cbn [app] in *. eauto 8.
  - destruct (reverse_trail g r m t es Hc Ht) as (Hc' & Ht' & HP).
    assert (Er : rev t = (rev b) ++ s :: (c :: rev a)).
    { rewrite Et, rev_app_distr. cbn [rev]. rewrite <- !app_assoc. reflexivity. }
    destruct (rotate_trail g r m (rev t) (rev es) (rev b) s (c :: rev a) Hc' Ht' Er)
      as (es' & H1 & H2 & H3 & H4); [discriminate|].
    cbn [app] in *. eexists; exists es'. split; [exact H1|]. split; [exact H2|]. split.
    + eapply Permutation_trans; [apply Permutation_rev|auto].
    + eapply Permutation_trans; eauto.
Qed.

(** ** adjacency along a walk *)
Fixpoint wadj (v : nat) (w : list nat) : list nat :=
  match w with
  | a :: w' => match w' with b :: _ => adj_of v (a, b) ++ wadj v w' | [] => [] end
  | [] => []
  end.

Lemma wadj_cons2 v a b w : wadj v (a :: b :: w) = adj_of v (a, b) ++ wadj v (b :: w).
Proof. reflexivity. Qed.

Lemma wadj_app v a x b : wadj v (a ++ x :: b) = wadj v (a ++ [x]) ++ wadj v (x :: b).
Proof.
  induction a as [|y t IH]; [reflexivity|].
  cbn [app] in *. destruct t as [|z t]; cbn [app] in *.
  - rewrite !wadj_cons2. now rewrite app_nil_r.
  - rewrite !wadj_cons2, IH, app_assoc. reflexivity.
Qed.

Lemma wadj_notin v w : ~ In v w -> wadj v w = [].
Proof.
  induction w as [|a w IH]; intros H; auto. destruct w as [|b w]; auto.
  rewrite wadj_cons2, IH by (intros Hx; apply H; now right).
  unfold adj_of; cbn [fst snd].
  destruct (Nat.eqb_spec a v); [exfalso; apply H; left; auto|].
  destruct (Nat.eqb_spec b v); [exfalso; apply H; right; left; auto|]. reflexivity.
Qed.

Lemma wadj_length v w : length (wadj v w) = cnt (removelast w) v + cnt (tl w) v.
Proof.
  induction w as [|a w IH]; auto. destruct w as [|b w]; auto.
  rewrite wadj_cons2, app_length, IH.
  change (removelast (a :: b :: w)) with (a :: removelast (b :: w)).
  cbn [tl]. unfold cnt. cbn [count_occ].
  unfold adj_of; cbn [fst snd]. rewrite app_length.
  destruct (Nat.eqb_spec a v), (Nat.eqb_spec b v), (Nat.eq_dec a v), (Nat.eq_dec b v);
    cbn [length tl count_occ]; try congruence; lia.
Qed.

Lemma trail_enbrs g w es : trail g w es -> no_loops g es -> forall v, enbrs g es v = wadj v w.
Proof.
  induction 1 as [u|a b w e es Hj Ht IH]; intros Hnl v; [reflexivity|].
  rewrite wadj_cons2, enbrs_cons, IH.
  2:{ intros f x y Hf. apply Hnl. now right. }
  f_equal. assert (Hab : a <> b) by (apply (Hnl e); [now left|auto]).
  unfold edge_adj. destruct Hj as [E|E]; rewrite E; auto. apply adj_of_swap; auto.
Qed.

Lemma closed_no_loops g r t es : closed_tour g r 1 t -> trail g t es -> no_loops g es.
Proof.
  intros (vs & Et & Hnd & Hl & _ & _) Ht e u v Hin Hj Huv.
  destruct (trail_In_split g t es e Ht Hin) as (a & x & y & b & E & Hj').
  assert (x = y).
  { subst v. destruct Hj as [Hj|Hj], Hj' as [Hj'|Hj']; rewrite Hj in Hj'; congruence. }
  subst y. rewrite Et in E.
  destruct (Nat.eq_dec x r) as [->|Hxr].
  - (* r next to r *)
    destruct a as [|a0 a]; cbn [app] in E.
    + inversion E. destruct vs as [|v0 vs]; [simpl in Hl; lia|].
      cbn [app] in *. inversion H0; subst. apply NoDup_cons_iff in Hnd as [Hnd _]. apply Hnd. now left.
    + assert (E' : vs ++ [r] = a ++ r :: r :: b) by congruence.
      assert (In r vs).
      { destruct b as [|b0 b] using rev_ind.
        - replace (a ++ [r; r]) with ((a ++ [r]) ++ [r]) in E' by (rewrite <- app_assoc; reflexivity).
          apply app_inj_tail in E' as [-> _]. rewrite in_app_iff; right; left; auto.
        - replace (a ++ r :: r :: b ++ [b0]) with ((a ++ r :: r :: b) ++ [b0]) in E'
            by (rewrite <- app_assoc; reflexivity).
          apply app_inj_tail in E' as [-> _]. rewrite in_app_iff; right; left; auto. }
      apply NoDup_cons_iff in Hnd as [Hnd _]. auto.
  - assert (Hc : cnt (r :: vs ++ [r]) x <= 1).
    { unfold cnt. rewrite count_occ_cons_neq, count_occ_app by auto.
      rewrite count_occ_cons_neq by auto. simpl.
      apply NoDup_cons_iff in Hnd as [_ Hnd].
      pose proof (proj1 (NoDup_count_occ Nat.eq_dec vs) Hnd x). lia. }
    rewrite E in Hc. unfold cnt in Hc. rewrite count_occ_app, !count_occ_cons_eq in Hc by auto. lia.
Qed.

Lemma cnt_nodup l x : NoDup l -> cnt l x = if memb x l then 1 else 0.
Proof.
  intros H. unfold cnt. destruct (memb x l) eqn:E.
  - apply memb_In in E. apply (proj1 (NoDup_count_occ' Nat.eq_dec l) H x E).
  - apply memb_not_In in E. now apply count_occ_not_In.
Qed.

(** every vertex of a closed tour has degree two, the others zero *)
Lemma closed_degree g r t es v : closed_tour g r 1 t -> trail g t es ->
  length (enbrs g es v) = if memb v t then 2 else 0.
Proof.
  intros Hc Ht. pose proof (closed_no_loops g r t es Hc Ht) as Hnl.
  rewrite (trail_enbrs g t es Ht Hnl), wadj_length.
  destruct Hc as (vs & -> & Hnd & _).
  rewrite removelast_cons_snoc. cbn [tl].
  assert (HP : Permutation (r :: vs) (vs ++ [r])) by apply Permutation_cons_append.
  rewrite (cnt_nodup (r :: vs) v Hnd), (cnt_nodup (vs ++ [r]) v (Permutation_NoDup HP Hnd)).
  assert (E1 : memb v (r :: vs) = memb v (r :: vs ++ [r])).
  { apply eq_true_iff_eq. rewrite !memb_In. simpl. rewrite in_app_iff. simpl. tauto. }
  assert (E2 : memb v (vs ++ [r]) = memb v (r :: vs ++ [r])).
  { apply eq_true_iff_eq. rewrite !memb_In. simpl. rewrite in_app_iff. simpl. tauto. }
  rewrite E1, E2. destruct (memb v (r :: vs ++ [r])); reflexivity.
Qed.

(** ** isSimpleCycle accepts every cycle *)
Lemma wadj_mid v a p q b : ~ In v (a ++ [p]) -> ~ In v (q :: b) ->
  wadj v ((a ++ [p]) ++ v :: q :: b) = [p; q].
Proof.
  intros H1 H2. rewrite <- app_assoc. cbn [app].
  rewrite (wadj_app v a p (v :: q :: b)), (wadj_notin v (a ++ [p]) H1).
  rewrite !wadj_cons2, (wadj_notin v (q :: b) H2).
  unfold adj_of; cbn [fst snd].
  destruct (Nat.eqb_spec p v) as [->|_].
  { exfalso. apply H1. rewrite in_app_iff. right; left; auto. }
  rewrite Nat.eqb_refl.
  destruct (Nat.eqb_spec q v) as [->|_]; [exfalso; apply H2; left; auto|]. reflexivity.
Qed.

Lemma cycle_walk_tour m s vs :
  NoDup (s :: vs) ->
  (forall v, Permutation (m v) (wadj v (s :: vs ++ [s]))) ->
  forall rest a prev cur n i, s :: vs ++ [s] = a ++ prev :: cur :: rest ->
  length rest <= n ->
  cycle_walk m s n i prev cur = Some (i + length rest).
Proof.
  intros Hnd Hm. induction rest as [|next rest IH]; intros a prev cur n i E Hn.
  - assert (cur = s).
    { change (s :: vs ++ [s]) with ((s :: vs) ++ [s]) in E.
      replace (a ++ [prev; cur]) with ((a ++ [prev]) ++ [cur]) in E by (rewrite <- app_assoc; reflexivity).
      apply app_inj_tail in E as [_ E]. auto. }
    subst cur. destruct n; cbn [cycle_walk]; rewrite Nat.eqb_refl; f_equal; simpl; lia.
  - cbn [length] in Hn. destruct n as [|n]; [lia|].
    assert (Hsplit : exists l b, next :: rest = l ++ [b] /\ b = s /\ s :: vs = a ++ prev :: cur :: l).
    { destruct (@exists_last _ (next :: rest)) as (l & b & El); [discriminate|].
      exists l, b. split; auto. rewrite El in E.
      replace (a ++ prev :: cur :: l ++ [b]) with ((a ++ prev :: cur :: l) ++ [b]) in E
        by (rewrite <- app_assoc; reflexivity).
      change (s :: vs ++ [s]) with ((s :: vs) ++ [s]) in E.
      apply app_inj_tail in E as [E1 E2]. auto. }
    destruct Hsplit as (l & b & El & -> & Evs).
    assert (Hcs : cur <> s /\ ~ In cur (a ++ [prev]) /\ ~ In cur l).
    { rewrite Evs in Hnd. apply NoDup_app_iff in Hnd as (_ & Hnd2 & Hnd3).
      inversion Hnd2 as [|? ? Hp Hnd2']; subst. inversion Hnd2' as [|? ? Hc _]; subst.
      split; [|split; auto].
      - intros ->. destruct a as [|a0 a]; cbn [app] in Evs.
        + inversion Evs; subst. apply Hp. now left.
        + inversion Evs; subst. apply (Hnd3 a0); [now left|right; now left].
      - rewrite in_app_iff. intros [H|[H|[]]].
        + apply (Hnd3 cur H). right; now left.
        + subst. apply Hp. now left. }
    destruct Hcs as (Hcs & Hc1 & Hc2).
    assert (Hmc : Permutation (m cur) [prev; next]).
    { eapply Permutation_trans; [apply Hm|]. rewrite E.
      replace (a ++ prev :: cur :: next :: rest) with ((a ++ [prev]) ++ cur :: next :: rest)
        by (rewrite <- app_assoc; reflexivity).
      rewrite wadj_mid; auto. rewrite El, in_app_iff. intros [H|[H|[]]]; congruence. }
    cbn [cycle_walk]. destruct (Nat.eqb_spec cur s) as [|_]; [congruence|].
    pose proof (Permutation_length Hmc) as Hlen.
    destruct (m cur) as [|x [|y [|? ?]]] eqn:Em; try discriminate.
    assert (Hnext : (if Nat.eqb x prev then y else x) = next).
    { destruct (Permutation_length_2_inv (Permutation_sym Hmc)) as [E'|E'];
        injection E' as -> ->.
      - now rewrite Nat.eqb_refl.
      - destruct (Nat.eqb_spec next prev); congruence. }
    rewrite Hnext.
    rewrite (IH (a ++ [prev]) cur next n (S i)); [f_equal; cbn [length]; lia| |lia].
    rewrite <- app_assoc. exact E.
Qed.

Lemma is_simple_cycle_complete g es : NoDup es ->
  cycle_edges g 1 es -> is_simple_cycle g es = Ok true.
Proof.
  intros Hnd (r & t & es0 & Hc & Ht & HP).
  pose proof (closed_no_loops g r t es0 Hc Ht) as Hnl0.
  assert (Hnl : no_loops g es).
  { intros e u v He. apply Hnl0. eapply Permutation_in; eauto. }
  assert (Hv : Forall (fun e => e < length (ge g)) es).
  { apply Forall_forall. intros e He. apply (Permutation_in e HP) in He.
    destruct (trail_In_split g t es0 e Ht He) as (a & x & y & b & _ & Hj).
    eapply joins_lt; eauto. }
  destruct es as [|e0 es1] eqn:Ees.
  { exfalso. apply Permutation_nil in HP. subst es0. inversion Ht; subst.
    destruct Hc as (vs & E & _). destruct vs; discriminate. }
  rewrite <- Ees in *.
  destruct (cycle_count_spec g es Hv (fun _ => [])) as (om & Eom & Hom).
  assert (He0 : In e0 es) by (rewrite Ees; now left).
  assert (He0v : e0 < length (ge g)) by (rewrite Forall_forall in Hv; auto).
  destruct (nth_error (ge g) e0) as [[s c]|] eqn:E0; [|apply nth_error_None in E0; lia].
  destruct (orient_trail g r 1 t es0 e0 s c Hc Ht) as (w & es' & Hc' & Ht' & HP' & _);
    [eapply Permutation_in; eauto|auto|].
  assert (HPe : Permutation es es') by (eapply Permutation_trans; eauto).
  unfold is_simple_cycle. rewrite Ees at 1. rewrite Eom. cbn [bind].
  destruct om as [m|].
  2:{ exfalso. destruct Hom as [(e & u & He & Hj)|(v & Hlen)].
      - exact (Hnl e u u He Hj eq_refl).
      - cbn [app] in Hlen. rewrite (Permutation_length (enbrs_perm g es es' v HPe)) in Hlen.
        rewrite (closed_degree g s _ es' v Hc' Ht') in Hlen. destruct (memb _ _); lia. }
  destruct Hom as (Hm & _ & _). unfold endpoints. rewrite E0. cbn [bind fst snd].
  pose proof (closed_no_loops g s _ es' Hc' Ht') as Hnl'.
  destruct Hc' as (vs & Evs & Hnd' & Hl' & _ & _).
  assert (Hlen : length es = S (length w)).
  { rewrite (Permutation_length HPe). apply trail_length in Ht'. cbn [length] in Ht'. lia. }
  rewrite (cycle_walk_tour m s vs Hnd') with (a := []) (rest := w).
  - rewrite Hlen. simpl. rewrite Nat.sub_0_r, Nat.eqb_refl. reflexivity.
  - intros v. rewrite Hm. cbn [app]. rewrite <- Evs.
    rewrite <- (trail_enbrs g _ es' Ht' Hnl'). now apply enbrs_perm.
  - rewrite <- Evs. reflexivity.
  - lia.
Qed.

(** ** and nothing else *)
Lemma choose_edges g (es : list nat) w :
  (forall i u v, nth_error w i = Some u -> nth_error w (S i) = Some v ->
     exists e, In e es /\ joins g e u v) -> w <> [] ->
  exists es', trail g w es' /\ incl es' es.
Proof.
  induction w as [|u w IH]; intros H Hne; [congruence|].
  destruct w as [|v w].
  - exists []. split; [constructor|]. intros x [].
  - destruct (H 0 u v eq_refl eq_refl) as (e & He & Hj).
    destruct IH as (es' & Ht & Hi); [|discriminate|].
    + intros i x y Hx Hy. apply (H (S i)); auto.
    + exists (e :: es'). split; [now constructor|]. intros x [<-|Hx]; auto.
Qed.

Lemma trail_nodup_big g s vs es : NoDup (s :: vs) -> 2 <= length vs ->
  trail g (s :: vs ++ [s]) es -> NoDup es.
Proof.
  intros Hnd Hl Ht. apply NoDup_nth_error. intros i j Hi E.
  pose proof (trail_length g _ _ Ht) as Hlen. cbn [length] in Hlen. rewrite app_length in Hlen.
  cbn [length] in Hlen.
  assert (Hj : j < length es). { apply nth_error_Some. rewrite <- E. now apply nth_error_Some. }
  set (t := s :: vs ++ [s]) in *.
  assert (Ex : forall q, q <= length es -> exists x, nth_error t q = Some x).
  { intros q Hq. destruct (nth_error t q) eqn:En; eauto. apply nth_error_None in En.
    unfold t in En. cbn [length] in En. rewrite app_length in En. cbn [length] in En. lia. }
  assert (Et : t = (s :: vs) ++ [s]) by reflexivity.
  assert (Hlow : forall q, q < length es -> nth_error t q = nth_error (s :: vs) q).
  { intros q Hq. rewrite Et. apply nth_error_app1. cbn [length]. lia. }
  assert (Hlast : nth_error t (length es) = Some s).
  { rewrite Et, nth_error_app2 by (cbn [length]; lia).
    replace (length es - length (s :: vs)) with 0 by (cbn [length]; lia). reflexivity. }
  assert (Hinj : forall p q x, p < length es -> q < length es ->
            nth_error t p = Some x -> nth_error t q = Some x -> p = q).
  { intros p q x Hp Hq H1 H2. rewrite Hlow in H1, H2 by auto.
    apply (proj1 (NoDup_nth_error (s :: vs)) Hnd); [cbn [length]; lia|congruence]. }
  assert (Hz : forall p, p < length es -> nth_error t p = Some s -> p = 0).
  { intros p Hp H. apply (Hinj p 0 s); auto. lia. }
  destruct (nth_error es i) as [e|] eqn:Ei; [|apply nth_error_None in Ei; lia].
  destruct (Ex i) as [u Hu]; [lia|]. destruct (Ex (S i)) as [u' Hu']; [lia|].
  destruct (Ex j) as [v Hv]; [lia|]. destruct (Ex (S j)) as [v' Hv']; [lia|].
  pose proof (trail_nth g t es Ht i u u' e Hu Hu' Ei) as J1.
  pose proof (trail_nth g t es Ht j v v' e Hv Hv' (eq_sym E)) as J2.
  assert (HH : (u = v /\ u' = v') \/ (u = v' /\ u' = v)).
  { destruct J1 as [J1|J1], J2 as [J2|J2]; rewrite J1 in J2; inversion J2; subst; auto. }
  destruct HH as [[-> _]|[-> ->]]; [apply (Hinj i j v); auto|].
  destruct (Nat.eq_dec (S i) (length es)) as [Si|Si]; destruct (Nat.eq_dec (S j) (length es)) as [Sj|Sj];
    try lia.
  - rewrite Si, Hlast in Hu'. inversion Hu'; subst v. pose proof (Hz j Hj Hv).
    subst j. assert (i = 1) by (apply (Hinj i 1 v'); auto; lia). lia.
  - rewrite Sj, Hlast in Hv'. inversion Hv'; subst v'. pose proof (Hz i Hi Hu).
    subst i. assert (j = 1) by (apply (Hinj j 1 v); auto; lia). lia.
  - assert (S i = j) by (apply (Hinj (S i) j v); auto; lia).
    assert (i = S j) by (apply (Hinj i (S j) v'); auto; lia). lia.
Qed.

Lemma is_simple_cycle_sound g es : graph_ok g -> NoDup es ->
  Forall (fun e => e < length (ge g)) es ->
  is_simple_cycle g es = Ok true -> cycle_edges g 1 es.
Proof.
  intros Hg Hnd Hv H. destruct es as [|e0 es1] eqn:Ees; [discriminate|]. rewrite <- Ees in *.
  unfold is_simple_cycle in H. rewrite Ees in H at 1.
  destruct (cycle_count_spec g es Hv (fun _ => [])) as (om & Eom & Hom). rewrite Eom in H.
  cbn [bind] in H. destruct om as [m|]; [|discriminate].
  destruct Hom as (Hm & Hnl & _). cbn [app] in Hm.
  unfold endpoints in H. destruct (nth_error (ge g) e0) as [[s c]|] eqn:E0; [|discriminate].
  cbn [bind fst snd] in H.
  destruct (cycle_walk m s (length es) 0 s c) as [k|] eqn:Ew; [|discriminate].
  inversion H as [Hk]. apply Nat.eqb_eq in Hk. clear H.
  assert (Hpos : 1 <= length es) by (rewrite Ees; simpl; lia).
  assert (He0 : In e0 es) by (rewrite Ees; now left).
  assert (Hj0 : joins g e0 s c) by (now left).
  assert (Hcnt : forall u v, cnt (m u) v = cnt (m v) u).
  { intros u v. rewrite !Hm. now apply cnt_sym. }
  assert (Hsym : forall u v, In u (m v) -> In v (m u)).
  { intros u v Hin. apply (count_occ_In Nat.eq_dec). apply (count_occ_In Nat.eq_dec) in Hin.
    pose proof (Hcnt u v). unfold cnt in *. lia. }
  assert (Hirr : forall u, ~ In u (m u)).
  { intros u. rewrite Hm. now apply enbrs_irrefl. }
  assert (Hcs : c <> s) by (intros ->; exact (Hnl e0 s s He0 Hj0 eq_refl)).
  assert (Hin : In s (m c)).
  { rewrite Hm. apply enbrs_In. exists e0. split; auto. now apply joins_sym. }
  destruct (cycle_walk_traj m s Hsym (length es) 0 s c k Hin Ew) as (w & Htr & Hlw & _); [lia|].
  destruct (traj_end_s m s s (c :: w) Htr) as (vs & Evs & Hns).
  pose proof (traj_nodup m s (c :: w) vs Hcnt Hirr Htr Evs Hns) as Hnd'.
  assert (Hlvs : S (length vs) = length es).
  { assert (length (c :: w) = S (length vs)) by (rewrite Evs, app_length; simpl; lia).
    cbn [length] in H. lia. }
  assert (Hlv1 : 1 <= length vs).
  { destruct vs; simpl; [|lia]. inversion Evs; congruence. }
  (* consecutive vertices are joined by an edge of es *)
  assert (Hstep : forall i u v, nth_error (s :: c :: w) i = Some u ->
            nth_error (s :: c :: w) (S i) = Some v -> exists e, In e es /\ joins g e u v).
  { intros i u v Hu Hv2. destruct i as [|i].
    - simpl in *. inversion Hu; inversion Hv2; subst. eauto.
    - destruct (nth_error (s :: c :: w) i) as [x|] eqn:Ex.
      + destruct (traj_pos m s s (c :: w) Htr i x u v Ex Hu Hv2) as [_ HPm].
        apply enbrs_In. rewrite <- Hm. apply (Permutation_in v (Permutation_sym HPm)). simpl; auto.
      + apply nth_error_None in Ex. apply nth_error_Some_lt in Hu. lia. }
  destruct (choose_edges g es (s :: c :: w) Hstep) as (es' & Ht & Hi); [discriminate|].
  assert (Hft : Forall (fun v => v < gn g) (s :: c :: w)).
  { rewrite Forall_forall. intros x Hx. apply In_nth_error in Hx as [i Hx].
    destruct i as [|i].
    - simpl in Hx. inversion Hx; subst. apply (is_edge_range g x c); auto. exists e0; auto.
    - destruct (nth_error (s :: c :: w) i) as [y|] eqn:Ey.
      + destruct (Hstep i y x Ey Hx) as (e & _ & Hj). apply (is_edge_range g y x); auto. exists e; auto.
      + apply nth_error_None in Ey. apply nth_error_Some_lt in Hx. lia. }
  assert (Hct : closed_tour g s 1 (s :: c :: w)).
  { exists vs. split; [congruence|]. split; auto. split; auto. split; auto.
    eapply trail_walk; eauto. }
  rewrite Evs in Ht, Hct.
  destruct (Nat.eq_dec (length vs) 1) as [Hone|Hbig].
  - (* two parallel edges *)
    destruct vs as [|c' [|? ?]]; try (simpl in Hone; lia). cbn [app] in *.
    inversion Evs; subst c' w. clear Evs.
    destruct es as [|e0' [|e1 [|? ?]]]; simpl in Hlvs; try lia. inversion Ees; subst e0' es1.
    assert (HPc : Permutation (m c) [s; s]).
    { inversion Htr; subst. auto. }
    rewrite Hm, !enbrs_cons in HPc. unfold edge_adj at 1 in HPc. rewrite E0 in HPc.
    rewrite adj_of_noloop in HPc by auto.
    destruct (Nat.eqb_spec c s) as [|_]; [congruence|]. rewrite Nat.eqb_refl in HPc.
    cbn [app] in HPc. apply Permutation_cons_inv in HPc.
    simpl in HPc. rewrite app_nil_r in HPc.
    assert (Hj1 : joins g e1 c s).
    { apply edge_adj_In. apply (Permutation_in s (Permutation_sym HPc)). now left. }
    exists s, [s; c; s], [e0; e1]. split; auto. split; [|apply Permutation_refl].
    constructor; auto. constructor; auto. constructor.
  - exists s, (s :: vs ++ [s]), es'. split; [auto|]. split; auto.
    apply Permutation_sym. apply NoDup_Permutation_bis; auto.
    + apply (trail_nodup_big g s vs); auto. lia.
    + apply trail_length in Ht. cbn [length] in Ht. rewrite app_length in Ht. simpl in Ht. lia.
Qed.

Lemma is_simple_cycle_total g es : Forall (fun e => e < length (ge g)) es ->
  exists b, is_simple_cycle g es = Ok b.
Proof.
  intros Hv. destruct es as [|e0 es1]; [eexists; reflexivity|].
  destruct (cycle_count_spec g (e0 :: es1) Hv (fun _ => [])) as (om & Eom & _).
  unfold is_simple_cycle. rewrite Eom. cbn [bind].
  destruct om as [m|]; [|eexists; reflexivity].
  assert (e0 < length (ge g)) by (inversion Hv; auto).
  unfold endpoints. destruct (nth_error (ge g) e0) eqn:E; [|apply nth_error_None in E; lia].
  cbn [bind]. destruct (cycle_walk _ _ _ _ _ _); eexists; reflexivity.
Qed.

Lemma is_simple_cycle_iff g es : graph_ok g -> NoDup es ->
  Forall (fun e => e < length (ge g)) es ->
  exists b, is_simple_cycle g es = Ok b /\ (b = true <-> cycle_edges g 1 es).
Proof.
  intros Hg Hnd Hv. destruct (is_simple_cycle_total g es Hv) as [b E]. exists b. split; auto. split.
  - intros ->. now apply is_simple_cycle_sound.
  - intros H. apply is_simple_cycle_complete in H; auto. congruence.
Qed.

(** Without parallel edges the cycle has at least three vertices. *)
Lemma cycle_edges_simple g es : no_parallel g -> NoDup es -> cycle_edges g 1 es -> cycle_edges g 2 es.
Proof.
  intros Hnp Hnd (r & t & es' & Hc & Ht & HP).
  exists r, t, es'. split; [|auto].
  destruct Hc as (vs & Et & Hndv & Hl & Hw & Hf). exists vs. split; auto. split; auto. split; auto.
  destruct vs as [|c [|? ?]]; [simpl in Hl; lia| |simpl; lia].
  exfalso. subst t. cbn [app] in Ht.
  apply trail_inv2 in Ht as (e & es1 & -> & J1 & Ht).
  apply trail_inv2 in Ht as (f & es2 & -> & J2 & Ht).
  apply joins_sym in J2. pose proof (Hnp e f r c J1 J2). subst f.
  apply (Permutation_NoDup HP) in Hnd. inversion Hnd; subst. apply H1. now left.
Qed.

Lemma cycle_edges_weaken g es : cycle_edges g 2 es -> cycle_edges g 1 es.
Proof.
  intros (r & t & es' & (vs & Et & Hnd & Hl & Hw & Hf) & Ht & HP).
  exists r, t, es'. split; auto. exists vs. split; auto. split; auto. split; [lia|auto].
Qed.
