(** * P_GraphCycle: isGraphSimpleCycle is exact on simple graphs with more than one vertex *)
From Coq Require Import Permutation.
From Verif Require Import Base Graph Spec Spec_Cycle M_Graph M_Solution P_Base P_Check P_Cycle P_ILP P_Component P_Separate.
Open Scope nat_scope.

Lemma nbrs_enbrs g v : nbrs g v = enbrs g (eids g) v.
Proof.
  unfold nbrs, enbrs, eids, edge_adj.
  assert (H : forall l pre, ge g = pre ++ l ->
    flat_map (adj_of v) l = flat_map (fun e => match nth_error (ge g) e with Some p => adj_of v p | None => [] end)
      (seq (length pre) (length l))).
  { induction l as [|p l IH]; intros pre E; [reflexivity|]. cbn [flat_map length seq].
    rewrite E at 1. rewrite nth_error_app2, Nat.sub_diag by lia. cbn [nth_error]. f_equal.
    rewrite (IH (pre ++ [p])) by (rewrite <- app_assoc; exact E).
    rewrite app_length, Nat.add_comm. reflexivity. }
  exact (H (ge g) [] eq_refl).
Qed.

Lemma trail_conn g t es : trail g t es -> forall a v, hd_error t = Some a -> In v t -> connected g a v.
Proof.
  induction 1 as [u|u v w e es Hj Ht IH]; intros a x Ha Hx.
  - cbn in Ha. inversion Ha; subst. destruct Hx as [<-|[]]. constructor.
  - cbn in Ha. inversion Ha; subst a. destruct Hx as [<-|Hx]; [constructor|].
    apply connected_trans with v; [apply connected_edge; now exists e|]. now apply IH.
Qed.

Lemma forallb_vertices (f : nat -> bool) n : forallb f (seq 0 n) = true <-> forall v, v < n -> f v = true.
Proof.
  rewrite forallb_forall. split; intros H v Hv; apply H; [apply in_seq; lia|apply in_seq in Hv; lia].
Qed.

Definition spanning_cycle (g : graph) : Prop :=
  exists r t es, closed_tour g r 2 t /\ trail g t es /\
    Permutation (seq 0 (length (ge g))) es /\ forall v, v < gn g -> In v t.

Lemma closed_one g r t : closed_tour g r 2 t -> closed_tour g r 1 t.
Proof. intros (vs & H1 & H2 & H3 & H4). exists vs. repeat (split; auto). lia. Qed.

Lemma spanning_facts g : graph_ok g -> spanning_cycle g -> 1 < gn g /\ ge g <> [] /\
  (forall v, v < gn g -> length (nbrs g v) = 2) /\
  (forall a b, a < gn g -> b < gn g -> connected g a b).
Proof.
  intros Hg (r & t & es & Hc & Ht & Hp & Hall).
  assert (Hc1 := closed_one _ _ _ Hc).
  assert (Hhd : hd_error t = Some r) by (destruct Hc as (vs & -> & _); reflexivity).
  assert (Hlt : forall v, v < gn g -> connected g r v) by (intros v Hv; eapply trail_conn; eauto).
  assert (Hdeg : forall v, v < gn g -> length (nbrs g v) = 2).
  { intros v Hv. rewrite nbrs_enbrs. unfold eids. rewrite (Permutation_length (enbrs_perm g _ _ v Hp)).
    rewrite (closed_degree g r t es v Hc1 Ht).
    destruct (memb v t) eqn:E; auto. apply memb_not_In in E. now specialize (Hall v Hv). }
  assert (He : es <> []).
  { pose proof (trail_length _ _ _ Ht) as Hl. destruct Hc as (vs & -> & _ & Hl2 & _). intros ->.
    cbn [length] in Hl. rewrite app_length in Hl. cbn in Hl. lia. }
  split; [|split; [|split]]; auto.
  - destruct Ht as [u|u v w e es0 Hj Ht']; [destruct Hc as (vs & E & _ & Hl2 & _); destruct vs; discriminate E|].
    assert (Huv : u <> v).
    { apply (closed_no_loops g r _ _ Hc1 (tr_cons g u v w e es0 Hj Ht') e u v); [now left|auto]. }
    destruct (is_edge_range g u v Hg (ex_intro _ e Hj)). lia.
  - intros E. rewrite E in Hp. apply Permutation_nil in Hp. contradiction.
  - intros a b Ha Hb. apply connected_trans with r; auto. apply connected_sym. auto.
Qed.

Lemma spanning_of_degree g : graph_ok g -> no_parallel g -> 1 < gn g ->
  (forall v, v < gn g -> length (nbrs g v) = 2) ->
  (forall b, b < gn g -> connected g 0 b) -> spanning_cycle g.
Proof.
  intros Hg Hp Hn Hdeg Hconn.
  assert (Hc2 : forall a b, a < gn g -> b < gn g -> connected g a b).
  { intros a b Ha Hb. apply connected_trans with 0; auto. apply connected_sym. auto. }
  assert (HvE : Forall (fun e => e < length (ge g)) (eids g)).
  { apply Forall_forall. intros e. apply eids_In. }
  assert (Hnl : no_loops g (eids g)).
  { intros e u v He Hj ->.
    destruct (is_edge_range g v v Hg (ex_intro _ e Hj)) as [Hv _].
    assert (Hw : exists w, w < gn g /\ w <> v).
    { destruct (Nat.eq_dec v 0) as [->|]; [exists 1|exists 0]; lia. }
    destruct Hw as (w & Hw & Hne).
    destruct (connected_step_out g v w (Hc2 v w Hv Hw) ltac:(auto)) as (c & Hcv & (f & Hf)).
    specialize (Hdeg v Hv). rewrite nbrs_enbrs in Hdeg.
    destruct (Permutation_incl_split [e; f] (eids g)) as (rest & HP).
    - assert (e <> f).
      { intros ->. destruct Hj as [E|E], Hf as [E'|E']; rewrite E in E'; inversion E'; congruence. }
      repeat constructor; cbn; intuition.
    - intros x [<-|[<-|[]]]; [auto|]. apply eids_In. eapply joins_lt; eauto.
    - rewrite (Permutation_length (enbrs_perm g _ _ v HP)) in Hdeg. cbn [app] in Hdeg.
      rewrite !enbrs_cons, !app_length in Hdeg.
      assert (length (edge_adj g v e) = 2).
      { unfold edge_adj. destruct Hj as [-> | ->]; unfold adj_of; cbn; rewrite !Nat.eqb_refl; reflexivity. }
      assert (1 <= length (edge_adj g v f)).
      { assert (In c (edge_adj g v f)) as Hin by now apply edge_adj_In.
        destruct (edge_adj g v f); [destruct Hin|cbn; lia]. }
      lia. }
  assert (Hd : forall v, enbrs g (eids g) v = [] \/ length (enbrs g (eids g) v) = 2).
  { intros v. destruct (Nat.lt_ge_cases v (gn g)) as [Hv|Hv].
    - right. rewrite <- nbrs_enbrs. auto.
    - left. destruct (enbrs g (eids g) v) as [|u l] eqn:E; auto. exfalso.
      assert (In u (enbrs g (eids g) v)) as Hin by (rewrite E; now left).
      apply enbrs_In in Hin as (e & _ & Hj). destruct (is_edge_range g v u Hg (ex_intro _ e Hj)). lia. }
  assert (H0 : enbrs g (eids g) 0 <> []).
  { intros E. specialize (Hdeg 0 ltac:(lia)). rewrite nbrs_enbrs, E in Hdeg. discriminate. }
  destruct (orbit g Hg Hp (eids g) (seq_NoDup _ _) HvE Hnl Hd 0 H0)
    as (t & es & Hc & Ht & Hin & Hnd & Hcl).
  assert (Hall : forall b, b < gn g -> In b t).
  { intros b Hb. apply (connected_inv g (fun v => In v t) 0 b (Hconn b Hb)).
    - intros u v Hu (e & Hj).
      assert (He : In e (eids g)) by (apply eids_In; eapply joins_lt; eauto).
      specialize (Hcl u e v Hu He Hj).
      destruct (trail_In_split g t es e Ht Hcl) as (l1 & x & y & l2 & E & Hxy).
      destruct (joins_fun g e u v x y Hj Hxy) as [[-> ->]|[-> ->]]; rewrite E;
        apply in_or_app; right; [right; now left|now left].
    - destruct Hc as (vs & -> & _). now left. }
  exists 0, t, es. split; [auto|]. split; [auto|]. split; [|auto].
  apply NoDup_Permutation; [apply seq_NoDup|auto|]. intros e. split; [|apply Hin].
  intros He. assert (He' := He). apply eids_In in He'.
  destruct (joins_exists g e He') as (u & v & Hj).
  apply (Hcl u e v); auto. apply Hall. now destruct (is_edge_range g u v Hg (ex_intro _ e Hj)).
Qed.

Lemma graph_simple_cycle_iff g len : graph_ok g -> no_parallel g -> gn g <> 1 ->
  (Z.of_nat (gn g) <= int_max)%Z -> gn g <= len ->
  exists b, is_graph_simple_cycle g len = Ok b /\ (b = true <-> spanning_cycle g).
Proof.
  intros Hg Hp Hn1 Hmax Hlen. unfold is_graph_simple_cycle, num_vertices, vertices.
  destruct (Nat.eqb_spec (gn g) 0) as [E0|E0].
  { exists false. split; [auto|]. split; [discriminate|]. intros H.
    apply (spanning_facts g Hg) in H as (H & _). lia. }
  destruct (Nat.eqb_spec (length (ge g)) 0) as [E1|E1].
  { exists false. split; [auto|]. split; [discriminate|]. intros H.
    apply (spanning_facts g Hg) in H as (_ & H & _). apply length_zero_iff_nil in E1. contradiction. }
  destruct (Nat.ltb_spec len (gn g)) as [E2|_]; [lia|].
  destruct (connected_components_ok g Hg Hmax) as (cs & k & E & Hl & Hk & Hconn & Hused).
  rewrite E. cbn [bind].
  destruct (Nat.eqb_spec k 1) as [->|Hk1]; cbn [negb].
  - eexists. split; [reflexivity|]. rewrite forallb_vertices.
    assert (Hc0 : forall a b, a < gn g -> b < gn g -> connected g a b).
    { intros a b Ha Hb. assert (H0 : forall v, v < gn g -> nth_error cs v = Some 0).
      { intros v Hv. destruct (nth_error cs v) as [c|] eqn:Ec; [|apply nth_error_None in Ec; lia].
        rewrite Forall_forall in Hk. specialize (Hk c (nth_error_In _ _ Ec)). f_equal. lia. }
      apply (Hconn a b 0); auto. }
    split.
    + intros Hd. apply spanning_of_degree; auto; try lia.
      * intros v Hv. apply Nat.eqb_eq. now apply Hd.
      * intros b Hb. apply Hc0; lia.
    + intros H v Hv. apply Nat.eqb_eq. now apply (spanning_facts g Hg) in H as (_ & _ & H & _); auto.
  - exists false. split; [auto|]. split; [discriminate|]. intros H. exfalso.
    apply (spanning_facts g Hg) in H as (_ & _ & _ & H).
    assert (Hk0 : k <> 0).
    { intros ->. destruct cs as [|c cs]; [cbn in Hl; lia|]. inversion Hk; lia. }
    destruct (Hused 0 ltac:(lia)) as (a & Ha). destruct (Hused 1 ltac:(lia)) as (b & Hb).
    pose proof (nth_error_Some_lt _ _ _ Ha). pose proof (nth_error_Some_lt _ _ _ Hb).
    pose proof (proj2 (Hconn a b 0 Ha) (H a b ltac:(lia) ltac:(lia))). congruence.
Qed.
