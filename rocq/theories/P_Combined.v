(** * P_Combined: the rounds of the combined heuristic *)
From Verif Require Import Base Graph Spec Spec_Combined M_Walk M_Graph M_Dijkstra M_Extension M_Collapse.
From Verif Require Import P_Base P_Walk P_Extension P_Dijkstra P_Collapse.
Open Scope nat_scope.

Section ROUNDS.
Context (g : graph) (c p : list Z) (root : nat) (C P : Z).
Context (Hg : graph_ok g) (Hc : costs_within g c 0 C) (Hp : prizes_within g p 0 P).
Context (HC : (0 <= C)%Z) (HP : (0 <= P)%Z).
Context (HCb : (2 * (Z.of_nat (S (gn g)) * C) <= int_max)%Z).
Context (HPb : (3 * (Z.of_nat (S (gn g)) * P) <= int_max)%Z).
Context (tb : tiebreak) (Htb : good_pick tb) (Hmax : (Z.of_nat (gn g) <= int_max)%Z).
Context (m : nat) (quota depth : Z) (shortest : bool) (last : Z).
Context (Hm : 1 <= m <= 2) (Hlast : (last < int_max)%Z).

Let ext_until k a b := path_extension_until g a c p root quota k depth = Ok b.
Let ext k a b := path_extension g a c p root k depth = Ok b.
Let col a b := collapse tb g a c p quota root shortest = Ok b.

Lemma tries_ok : forall rem step t, (1 <= step)%Z -> Z.to_nat (last + 1 - step) = rem -> closed_tour g root m t ->
  exists t' b, extend_until_feasible rem step g t c p quota root depth = Ok (t', b) /\ closed_tour g root m t' /\
    (b = true -> enough_prize p quota t') /\
    tries ext_until (enough_prize p quota) last step t (if b then Some t' else None).
Proof.
  induction rem as [|rem IH]; intros step t Hs Hr Ht; cbn [extend_until_feasible].
  - exists t, false. split; auto. split; auto. split; [discriminate|]. constructor. lia.
  - destruct (path_extension_until_ok g c p root C P Hg Hmax (costs_sym g c C P Hc HCb HPb) Hp HC HP HCb (HPb2 g C P HP HCb HPb Hmax) quota step depth t)
      as (t1 & E1 & Hx & _); [eapply closed_weaken; [|exact Ht]; lia|unfold int_min; lia|lia|].
    rewrite E1. cbn [bind].
    destruct (extends_closed g p root C P HCb HPb m t t1 Hm Ht Hx) as [Ht1 _].
    destruct (tour_prize_w g p root C P Hp HP HCb HPb Hmax m t1 ltac:(lia) Ht1) as (z & Ez & Hz). rewrite Ez. cbn [bind].
    destruct (Z.leb_spec quota z) as [Hq|Hq].
    + exists t1, true. split; auto. split; auto. split; [intros _; exists z; auto|].
      apply tries_hit; [lia|exact E1|exists z; auto].
    + destruct (IH (step + 1)%Z t1) as (t' & b & E & H1 & H2 & H3); auto; try lia.
      exists t', b. split; auto. split; auto. split; auto.
      eapply tries_on; [lia|exact E1| |exact H3]. intros (z' & Hz' & Hq').
      assert (z' = z) by (eapply prize_sum_fun; eauto). lia.
Qed.

Lemma rounds_ok : forall rem step t cost, (1 <= step)%Z -> Z.to_nat (last + 1 - step) = rem ->
  closed_tour g root m t -> walk_cost g c t cost ->
  exists t', ping_pong rem step tb g c p quota root shortest depth t t cost = Ok t' /\ closed_tour g root m t' /\
    rounds ext col (cheaper_than g c) last step t t'.
Proof.
  induction rem as [|rem IH]; intros step t cost Hs Hr Ht Hcost; cbn [ping_pong].
  - exists t. split; auto. split; auto. constructor. lia.
  - destruct (path_extension_ok g c p root C P Hg Hmax (costs_sym g c C P Hc HCb HPb) Hp HC HP HCb (HPb2 g C P HP HCb HPb Hmax) step depth t)
      as (t1 & E1 & Hx); [eapply closed_weaken; [|exact Ht]; lia|unfold int_min; lia|lia|].
    rewrite E1. cbn [bind].
    destruct (extends_closed g p root C P HCb HPb m t t1 Hm Ht Hx) as [Ht1 _].
    destruct (collapse_ok g c p root C P Hg Hc Hp HC HP HCb HPb tb Htb t1 root m quota shortest Ht1 ltac:(lia)
      (closed_root_in g root _ _ Ht1)) as (t2 & z1 & z2 & E2 & Ht2 & Hz1 & Hz2 & Hle & _).
    rewrite E2. cbn [bind].
    destruct (closed_len g root m t2 Ht2) as (k & Hl & _ & Hkn & _ & _).
    pose proof Ht2 as (_ & _ & _ & _ & Hw2 & Hf2).
    destruct (cost_w g c C P Hc HC HCb HPb t2 Hf2 Hw2 ltac:(lia)) as (z2' & Ez2 & Hz2' & _).
    assert (z2' = z2) by (eapply walk_cost_fun; eauto). subst z2'. rewrite Ez2. cbn [bind].
    destruct (Z.ltb_spec z2 cost) as [Hlt|Hge].
    + rewrite (reorder_root g root m t2 Ht2).
      destruct (IH (step + 1)%Z t2 z2) as (t' & E' & H1 & H2); auto; try lia.
      exists t'. split; auto. split; auto.
      eapply rounds_better; [lia|exact E1|exact E2|exists z2, cost; auto|exact H2].
    + destruct (IH (step + 1)%Z t cost) as (t' & E' & H1 & H2); auto; try lia.
      exists t'. split; auto. split; auto.
      eapply rounds_same; [lia|exact E1|exact E2| |exact H2]. intros (x & y & Hx' & Hy' & Hxy).
      assert (x = z2) by (eapply walk_cost_fun; eauto). assert (y = cost) by (eapply walk_cost_fun; eauto). lia.
Qed.

Lemma combined_rounds t : closed_tour g root m t ->
  exists t', path_extension_collapse tb g t c p quota root shortest depth last = Ok t' /\
  exists r, (enough_prize p quota t /\ r = Some t \/
             ~ enough_prize p quota t /\ tries ext_until (enough_prize p quota) last 1 t r) /\
    match r with
    | None => t' = []
    | Some t0 => exists b, col t0 b /\ rounds ext col (cheaper_than g c) last 1 b t'
    end.
Proof.
  intros Ht. unfold path_extension_collapse.
  destruct (tour_prize_w g p root C P Hp HP HCb HPb Hmax m t ltac:(lia) Ht) as (z & Ez & Hz). rewrite Ez. cbn [bind].
  assert (Hmain : forall t0, closed_tour g root m t0 ->
    exists t', (do best <- collapse tb g t0 c p quota root shortest;
        do best_cost <- total_cost g c best;
        do r <- ping_pong (Z.to_nat last) 1 tb g c p quota root shortest depth
           (reorder_tour_from_root best root) (reorder_tour_from_root best root) best_cost;
        Ok (reorder_tour_from_root r root)) = Ok t' /\
      exists b, col t0 b /\ rounds ext col (cheaper_than g c) last 1 b t').
  { intros t0 Ht0.
    destruct (collapse_ok g c p root C P Hg Hc Hp HC HP HCb HPb tb Htb t0 root m quota shortest Ht0 ltac:(lia)
      (closed_root_in g root _ _ Ht0)) as (t2 & z1 & z2 & E2 & Ht2 & Hz1 & Hz2 & Hle & _).
    rewrite E2. cbn [bind].
    destruct (closed_len g root m t2 Ht2) as (k & Hl & _ & Hkn & _ & _).
    pose proof Ht2 as (_ & _ & _ & _ & Hw2 & Hf2).
    destruct (cost_w g c C P Hc HC HCb HPb t2 Hf2 Hw2 ltac:(lia)) as (z2' & Ez2 & Hz2' & _).
    rewrite Ez2. cbn [bind]. rewrite (reorder_root g root m t2 Ht2).
    destruct (rounds_ok (Z.to_nat last) 1%Z t2 z2') as (t' & E' & H1 & H2); auto; try lia.
    rewrite E'. cbn [bind]. rewrite (reorder_root g root m t' H1). exists t'. split; auto. exists t2. auto. }
  destruct (Z.leb_spec quota z) as [Hq|Hq].
  - cbn [bind]. destruct (Hmain t Ht) as (t' & E & H). exists t'. split; [exact E|].
    exists (Some t). split; auto. left. split; auto. exists z. auto.
  - destruct (tries_ok (Z.to_nat last) 1%Z t) as (t1 & b & E1 & Ht1 & _ & H3); auto; try lia.
    rewrite E1. cbn [bind].
    assert (Hno : ~ enough_prize p quota t).
    { intros (z' & Hz' & Hq'). assert (z' = z) by (eapply prize_sum_fun; eauto). lia. }
    destruct b.
    + destruct (Hmain t1 Ht1) as (t' & E & H). exists t'. split; [exact E|]. exists (Some t1). auto.
    + exists []. split; auto. exists None. auto.
Qed.
End ROUNDS.
