(** * P_Walk: proofs about walk.hh. *)
From Coq Require Import Permutation.
From Verif Require Import Base Graph Spec M_Walk P_Base.
Open Scope Z_scope.

(** ** ReorderTourFromRoot *)
Lemma reorder_first s l : reorder_tour_from_root (s :: l) s = s :: l.
Proof. unfold reorder_tour_from_root. simpl. now rewrite Nat.eqb_refl. Qed.

Lemma reorder_mid s a r b : ~ In r (s :: a) ->
  reorder_tour_from_root (s :: a ++ r :: b ++ [s]) r = r :: b ++ [s] ++ a ++ [r].
Proof.
  intros Hn. unfold reorder_tour_from_root.
  change (s :: a ++ r :: b ++ [s]) with ((s :: a) ++ r :: b ++ [s]).
  rewrite find_pos_app_notin by assumption.
  cbn [find_pos]. rewrite Nat.eqb_refl, Nat.add_0_r.
  cbn [length Nat.eqb]. rewrite skipn_app.
  replace (skipn (S (length a)) (s :: a)) with (@nil nat)
    by (symmetry; apply skipn_all2; simpl; lia).
  simpl. rewrite Nat.sub_diag, Nat.sub_0_r. simpl.
  rewrite firstn_app, Nat.sub_diag, firstn_all. simpl. rewrite app_nil_r.
  rewrite <- app_assoc. reflexivity.
Qed.

Lemma tour_from_cases g s m t r : closed_tour g s m t -> In r t ->
  r = s \/ exists a b, t = s :: a ++ r :: b ++ [s] /\ ~ In r (s :: a).
Proof.
  intros (vs & -> & Hnd & Hl & Hw & Hf) [H|H]; [now left|].
  apply in_app_iff in H as [H|[H|[]]]; [|now left].
  destruct (Nat.eq_dec r s) as [->|Hne]; [now left|]. right.
  apply in_split in H as (a & b & ->). exists a, b. split.
  - rewrite <- app_assoc. reflexivity.
  - inversion Hnd as [|? ? H1 H2]; subst. intros [->|H]; [congruence|].
    apply NoDup_app_iff in H2 as (_ & _ & H3). apply (H3 r H). now left.
Qed.

Lemma reorder_closed g s m t r : closed_tour g s m t -> In r t ->
  let t' := reorder_tour_from_root t r in
  closed_tour g r m t' /\ same_cycle t t' /\
  Permutation (removelast t) (removelast t') /\
  (forall c z, walk_cost g c t z -> walk_cost g c t' z) /\
  (forall p z, tour_prize p t z -> tour_prize p t' z) /\
  reorder_tour_from_root t' r = t'.
Proof.
  intros Ht Hin t'.
  destruct (tour_from_cases g s m t r Ht Hin) as [->|(a & b & E & Hn)].
  - destruct Ht as (vs & E & Hnd & Hl & Hw & Hf).
    assert (Et : t' = t) by (unfold t'; rewrite E; apply reorder_first).
    rewrite Et. split; [exists vs; auto|]. split.
    { exists [], (s :: vs), s, s. subst t. simpl. auto. }
    repeat split; auto.
  - assert (Et : t' = r :: (b ++ [s] ++ a) ++ [r])
      by (unfold t'; rewrite E, reorder_mid by auto; simpl; now rewrite <- !app_assoc).
    destruct Ht as (vs & E' & Hnd & Hl & Hw & Hf).
    assert (Evs : vs = a ++ r :: b).
    { pose proof E' as E3. rewrite E in E3. inversion E3 as [E2].
      replace (a ++ r :: b ++ [s]) with ((a ++ r :: b) ++ [s]) in E2
        by (rewrite <- app_assoc; reflexivity).
      apply app_inj_tail in E2. symmetry. tauto. }
    subst vs.
    assert (Hperm : Permutation (s :: a ++ r :: b) (r :: b ++ [s] ++ a)).
    { change (s :: a ++ r :: b) with ((s :: a) ++ r :: b).
      change (r :: b ++ [s] ++ a) with ((r :: b) ++ (s :: a)). apply Permutation_app_comm. }
    assert (Hrl : removelast t = s :: a ++ r :: b) by (rewrite E'; apply removelast_cons_snoc).
    assert (Hrl' : removelast t' = r :: b ++ [s] ++ a) by (rewrite Et; apply removelast_cons_snoc).
    assert (Hw2 : is_walk g t').
    { rewrite E in Hw. change (s :: a ++ r :: b ++ [s]) with ((s :: a) ++ r :: b ++ [s]) in Hw.
      apply is_walk_split in Hw as [H1 H2]. rewrite Et. rewrite <- !app_assoc. simpl.
      change (r :: b ++ s :: a ++ [r]) with ((r :: b) ++ s :: (a ++ [r])).
      apply is_walk_join; auto. }
    split; [|split; [|split; [|split; [|split]]]].
    + exists (b ++ [s] ++ a). split; auto. split.
      { eapply Permutation_NoDup; eauto. }
      split.
      { rewrite !app_length in *. simpl in *. lia. }
      split; auto.
      rewrite Et. rewrite E in Hf. rewrite Forall_forall in *. intros x Hx. apply Hf.
      simpl in *. rewrite !in_app_iff in *. simpl in *. rewrite !in_app_iff. simpl. intuition.
    + exists (s :: a), (r :: b), s, r. rewrite E, Et. simpl.
      rewrite <- !app_assoc. simpl. repeat split; auto.
    + rewrite Hrl, Hrl'. exact Hperm.
    + intros c z Hc. rewrite E in Hc.
      change (s :: a ++ r :: b ++ [s]) with ((s :: a) ++ r :: b ++ [s]) in Hc.
      apply walk_cost_split in Hc as (z1 & z2 & H1 & H2 & ->).
      rewrite Et, <- !app_assoc. simpl.
      change (r :: b ++ s :: a ++ [r]) with ((r :: b) ++ s :: (a ++ [r])).
      rewrite Z.add_comm. apply walk_cost_join; auto.
    + intros p z Hp. unfold tour_prize in *. rewrite Hrl'. rewrite Hrl in Hp.
      eapply prize_sum_perm; eauto.
    + rewrite Et. apply reorder_first.
Qed.

Lemma reorder_spec g s t r : tour_from g s t -> In r t ->
  let t' := reorder_tour_from_root t r in
  tour_from g r t' /\ same_cycle t t' /\
  Permutation (removelast t) (removelast t') /\
  (forall c z, walk_cost g c t z -> walk_cost g c t' z) /\
  (forall p z, tour_prize p t z -> tour_prize p t' z) /\
  reorder_tour_from_root t' r = t'.
Proof. exact (reorder_closed g s 2 t r). Qed.

(** ** getEdgesInWalk *)
(** One edge per step. *)
Inductive walk_edges (g : graph) : list nat -> list nat -> Prop :=
| we_nil : walk_edges g [] []
| we_one : forall u, walk_edges g [u] []
| we_cons : forall u v w e es, step_edge g u v e -> walk_edges g (v :: w) es ->
                               walk_edges g (u :: v :: w) (e :: es).

Lemma get_edges_in_walk_cons g u v w :
  get_edges_in_walk g (u :: v :: w) =
  (do oe <- edge g u v;
   match oe with
   | None => Throw EdgeNotFoundException
   | Some e => do es <- get_edges_in_walk g (v :: w); Ok (e :: es)
   end).
Proof. reflexivity. Qed.

Lemma get_edges_in_walk_ok g w : Forall (fun v => (v < gn g)%nat) w -> is_walk g w ->
  exists es, get_edges_in_walk g w = Ok es /\ walk_edges g w es.
Proof.
  intros Hf. induction 1 as [|u|u v w He Hw IH].
  - eexists; split; [reflexivity|constructor].
  - eexists; split; [reflexivity|constructor].
  - inversion Hf as [|? ? Hu Hf']; subst.
    destruct (IH Hf') as (es & E & Hes).
    destruct (edge_exists g u v Hu He) as [e Ee].
    exists (e :: es). rewrite get_edges_in_walk_cons, Ee. cbn [bind].
    rewrite E. split; [reflexivity|]. constructor; auto. now apply edge_Some.
Qed.

Lemma get_edges_in_walk_throw g w : Forall (fun v => (v < gn g)%nat) w -> ~ is_walk g w ->
  get_edges_in_walk g w = Throw EdgeNotFoundException.
Proof.
  induction w as [|u w IH]; intros Hf Hn.
  - exfalso. apply Hn. constructor.
  - destruct w as [|v w]; [exfalso; apply Hn; constructor|].
    inversion Hf as [|? ? Hu Hf']; subst. rewrite get_edges_in_walk_cons.
    destruct (edge_total g u v Hu) as [[e|] E]; rewrite E; cbn [bind]; [|reflexivity].
    rewrite IH; auto. intros Hw. apply Hn. constructor; auto.
    exists e. apply edge_Some in E. apply E.
Qed.

Lemma walk_edges_walk g w es : walk_edges g w es -> is_walk g w.
Proof. induction 1 as [|u|u v w e es Hs Hw IH]; constructor; auto. exists e. apply Hs. Qed.

Lemma walk_edges_length g w es : walk_edges g w es -> length es = (length w - 1)%nat.
Proof. induction 1 as [|u|u v w e es Hs Hw IH]; simpl in *; auto. lia. Qed.

Lemma total_cost_edges_ok g c w es C acc :
  costs_within g c (- C) C -> walk_edges g w es ->
  Z.abs acc + Z.of_nat (length w) * C <= int_max ->
  exists z, foldM (fun acc e => do x <- cost_of c e; chk (acc + x)) es acc = Ok (acc + z) /\
            walk_cost g c w z.
Proof.
  intros [Hl Hf] H. revert acc. rewrite Forall_forall in Hf.
  induction H as [|u|u v w e es Hs Hw IH]; intros acc Hb; cbn [foldM].
  - exists 0. rewrite Z.add_0_r. split; auto. constructor.
  - exists 0. rewrite Z.add_0_r. split; auto. constructor.
  - destruct (vget_ok c e) as (x & E & En).
    { rewrite Hl. eapply joins_lt. apply Hs. }
    assert (Ec : cost_of c e = Ok x) by exact E. rewrite Ec. cbn [bind].
    pose proof (Hf x (nth_error_In _ _ En)) as Hx.
    cbn [length] in *.
    assert (HnC : 0 <= Z.of_nat (length w) * C) by (apply Z.mul_nonneg_nonneg; lia).
    rewrite chk_ok by (unfold int_min, int_max in *; lia). cbn [bind].
    destruct (IH (acc + x)) as (z & Ez & Hz); [lia|].
    exists (x + z). rewrite Ez. split; [f_equal; lia|]. econstructor; eauto.
Qed.

(** [totalCost] is the cost of the walk, and throws when it is not a walk. *)
Lemma total_cost_ok g c w C :
  costs_within g c (- C) C -> Forall (fun v => (v < gn g)%nat) w -> is_walk g w ->
  Z.of_nat (length w) * C <= int_max ->
  exists z, total_cost g c w = Ok z /\ walk_cost g c w z.
Proof.
  intros Hc Hf Hw Hb.
  destruct (get_edges_in_walk_ok g w Hf Hw) as (es & E & Hes).
  unfold total_cost, total_cost_edges. rewrite E. cbn [bind].
  destruct (total_cost_edges_ok g c w es C 0 Hc Hes) as (z & Ez & Hz); [lia|].
  exists z. rewrite Ez. auto.
Qed.

Lemma total_cost_throw g c w : Forall (fun v => (v < gn g)%nat) w -> ~ is_walk g w ->
  total_cost g c w = Throw EdgeNotFoundException.
Proof. intros Hf Hn. unfold total_cost. now rewrite get_edges_in_walk_throw. Qed.

(** ** totalPrize *)
Lemma total_prize_acc p P l acc :
  Forall (fun x => - P <= x <= P) p -> Forall (fun v => (v < length p)%nat) l ->
  Z.abs acc + Z.of_nat (length l) * P <= int_max ->
  exists z, foldM (fun acc v => do x <- prize_of p v; chk (acc + x)) l acc = Ok (acc + z) /\
            prize_sum p l z.
Proof.
  intros Hp. rewrite Forall_forall in Hp. revert acc.
  induction l as [|v l IH]; intros acc Hf Hb; cbn [foldM].
  - exists 0. rewrite Z.add_0_r. split; auto. constructor.
  - inversion Hf as [|? ? Hv Hf']; subst.
    destruct (vget_ok p v Hv) as (x & E & En). assert (Ec : prize_of p v = Ok x) by exact E. rewrite Ec. cbn [bind].
    pose proof (Hp x (nth_error_In _ _ En)) as Hx. cbn [length] in *.
    assert (HnP : 0 <= Z.of_nat (length l) * P) by (apply Z.mul_nonneg_nonneg; lia).
    rewrite chk_ok by (unfold int_min, int_max in *; lia). cbn [bind].
    destruct (IH (acc + x) Hf') as (z & Ez & Hz); [lia|].
    exists (x + z). rewrite Ez. split; [f_equal; lia|]. econstructor; eauto.
Qed.

Lemma total_prize_ok p P l :
  Forall (fun x => - P <= x <= P) p -> Forall (fun v => (v < length p)%nat) l ->
  Z.of_nat (length l) * P <= int_max ->
  exists z, total_prize p l = Ok z /\ prize_sum p l z.
Proof.
  intros Hp Hf Hb. destruct (total_prize_acc p P l 0 Hp Hf) as (z & E & H); [lia|].
  exists z. unfold total_prize. rewrite E. auto.
Qed.

Lemma total_prize_of_tour_ok p P t :
  Forall (fun x => - P <= x <= P) p -> Forall (fun v => (v < length p)%nat) t -> t <> [] ->
  Z.of_nat (length t) * P <= int_max -> 0 <= P ->
  exists z, total_prize_of_tour p t = Ok z /\ tour_prize p t z.
Proof.
  intros Hp Hf Hne Hb HP.
  destruct (exists_last Hne) as (l & x & ->).
  apply Forall_app in Hf as [Hf _]. rewrite app_length in Hb. cbn [length] in Hb.
  destruct (total_prize_ok p P l Hp Hf) as (z & E & H); [lia|].
  exists z. unfold total_prize_of_tour, tour_prize. rewrite removelast_snoc.
  destruct (l ++ [x]) eqn:El; [destruct l; discriminate|]. auto.
Qed.

Lemma total_prize_of_graph_ok g p P :
  prizes_within g p (- P) P -> Z.of_nat (gn g) * P <= int_max ->
  exists z, total_prize_of_graph g p = Ok z /\ prize_sum p (seq 0 (gn g)) z.
Proof.
  intros [Hl Hp] Hb. apply total_prize_ok with (P := P); auto.
  - apply Forall_forall. intros x Hx. apply in_seq in Hx. lia.
  - now rewrite seq_length.
Qed.

(** ** isInternalVertexOfWalk *)
Lemma is_internal_ok a m b v :
  is_internal_vertex_of_walk (a :: m ++ [b]) v = Ok (memb v m).
Proof.
  unfold is_internal_vertex_of_walk. cbn [length tl].
  rewrite app_length. cbn [length].
  replace (Nat.ltb (S (length m + 1)) 2) with false
    by (symmetry; apply Nat.ltb_ge; lia).
  now rewrite removelast_snoc.
Qed.

Lemma walk_edges_nth g w es : walk_edges g w es ->
  forall i u v e, nth_error w i = Some u -> nth_error w (S i) = Some v ->
  nth_error es i = Some e -> step_edge g u v e.
Proof.
  induction 1 as [|x|x y w e0 es Hs Hw IH]; intros i u v e Hu Hv He.
  - destruct i; discriminate.
  - destruct i; discriminate.
  - destruct i as [|i]; cbn [nth_error] in *.
    + inversion Hu; inversion Hv; inversion He; subst; auto.
    + eapply IH; eauto.
Qed.

Lemma get_edges_in_walk_exact g w : Forall (fun v => (v < gn g)%nat) w -> is_walk g w ->
  exists es, get_edges_in_walk g w = Ok es /\ length es = (length w - 1)%nat /\
    forall i u v e, nth_error w i = Some u -> nth_error w (S i) = Some v ->
      nth_error es i = Some e -> step_edge g u v e.
Proof.
  intros Hf Hw. destruct (get_edges_in_walk_ok g w Hf Hw) as (es & E & H).
  exists es. split; [auto|]. split; [eapply walk_edges_length; eauto|].
  eapply walk_edges_nth; eauto.
Qed.

Lemma get_edges_in_walk_throws_iff g w : Forall (fun v => (v < gn g)%nat) w ->
  get_edges_in_walk g w = Throw EdgeNotFoundException <-> ~ is_walk g w.
Proof.
  intros Hf. split.
  - intros E Hw. destruct (get_edges_in_walk_ok g w Hf Hw) as (es & E' & _). congruence.
  - now apply get_edges_in_walk_throw.
Qed.

Lemma total_cost_throws_iff g c w C :
  costs_within g c (- C) C -> Forall (fun v => (v < gn g)%nat) w ->
  Z.of_nat (length w) * C <= int_max ->
  total_cost g c w = Throw EdgeNotFoundException <-> ~ is_walk g w.
Proof.
  intros Hc Hf Hb. split.
  - intros E Hw. destruct (total_cost_ok g c w C Hc Hf Hw Hb) as (z & E' & _). congruence.
  - now apply total_cost_throw.
Qed.
