(** * Properties_Gain: C07, C08, C49, C50, C51 *)
From Coq Require Import Sorted.
From Verif Require Import Base Graph Spec M_Float M_Walk M_Gain Spec_Gain
  P_Base P_Float P_Check P_Gain P_GainOne.
Open Scope nat_scope.

(** Example data (not a model of anything): complete graph on 5 vertices. *)
Definition kg : graph :=
  mkGraph 5 [(0,1);(0,2);(0,3);(0,4);(1,2);(1,3);(1,4);(2,3);(2,4);(3,4)].
Definition kc : list Z := [4;5;3;4;4;3;6;5;3;4]%Z.
Definition kp : list Z := [1;2;3;9;5]%Z.

(** ** C07 *)
Theorem C07_unitary_gain_sound : forall g c p C P,
  costs_within g c (- C) C -> prizes_within g p (- P) P -> (3 * C <= int_max)%Z ->
  forall r t, closed_tour g r 1 t ->
  exists t' k a, extension_unitary_gain g t c p = Ok t' /\
    gain_steps g c p (fun _ x => f_lt a x = true) k t t' /\ average_gain g c p t a /\
    (forall v i x, gain_at g c p t' v i x -> f_lt f_zero x = true -> f_lt a x = false) /\
    closed_tour g r 1 t' /\ (t' = t \/ closed_tour g r 2 t') /\ subseq t t' /\
    length t' = k + length t /\ k + length t <= S (gn g).
Proof. exact extension_unitary_gain_ok. Qed.
Print Assumptions C07_unitary_gain_sound.

Theorem C07_unitary_gain_prize : forall g c p C P,
  costs_within g c (- C) C -> prizes_within g p 0 P -> (0 <= P)%Z -> (3 * C <= int_max)%Z ->
  forall r t z, closed_tour g r 1 t -> tour_prize p t z ->
  exists t' z', extension_unitary_gain g t c p = Ok t' /\ tour_prize p t' z' /\
    (z + (Z.of_nat (length t') - Z.of_nat (length t)) <= z')%Z.
Proof.
  intros g c p C P Hc Hp HP H3 r t z Ht Hz.
  assert (Hp' : prizes_within g p (- P) P).
  { destruct Hp as [Hl Hf]. split; auto. eapply Forall_impl; [|exact Hf]. simpl. lia. }
  destruct (extension_unitary_gain_ok g c p C P Hc Hp' H3 r t Ht)
    as (t' & k & a & E & Hs & _ & _ & _ & _ & _ & Hl & _).
  destruct (gain_steps_prize g c p P _ r k t t' z Hp Ht Hs Hz) as (z' & Hz' & L).
  exists t', z'. split; [auto|]. split; [auto|]. lia.
Qed.
Print Assumptions C07_unitary_gain_prize.

Example C07_case : graph_ok kg /\ costs_within kg kc (-10) 10 /\ prizes_within kg kp (-10) 10 /\
  closed_tour kg 0 1 [0;1;2;0] /\
  extension_unitary_gain kg [0;1;2;0] kc kp = Ok [0;3;1;2;0].
Proof. check. Qed.

(** ** C08 *)
Theorem C08_until_quota_or_stuck : forall g c p C P,
  costs_within g c (- C) C -> prizes_within g p (- P) P ->
  (3 * C <= int_max)%Z -> (0 <= P)%Z -> (Z.of_nat (S (gn g)) * P <= int_max)%Z ->
  forall r t quota, closed_tour g r 1 t ->
  exists t' k, extension_until_prize_feasible g t c p quota = Ok t' /\
    gain_steps g c p (fun s _ => exists z, tour_prize p s z /\ (z < quota)%Z) k t t' /\
    ((exists z, tour_prize p t' z /\ (quota <= z)%Z) \/
     (forall v i x, gain_at g c p t' v i x -> f_lt f_zero x = false)) /\
    closed_tour g r 1 t' /\ (t' = t \/ closed_tour g r 2 t') /\ subseq t t' /\
    length t' = k + length t /\ k + length t <= S (gn g).
Proof. exact extension_until_ok. Qed.
Print Assumptions C08_until_quota_or_stuck.

Example C08_case : prizes_within kg kp 0 10 /\ closed_tour kg 0 1 [0;1;2;0] /\
  extension_until_prize_feasible kg [0;1;2;0] kc kp 15 = Ok [0;3;1;2;0] /\
  extension_until_prize_feasible kg [0;1;2;0] kc kp 16 = Ok [0;3;1;2;4;0] /\
  extension_until_prize_feasible kg [0;1;2;0] kc kp 6 = Ok [0;1;2;0].
Proof. check. Qed.

(** A list of vertices that is not a walk, while some vertex is left: std::invalid_argument. *)
Theorem C08_not_a_walk : forall g c p C P,
  costs_within g c (- C) C -> prizes_within g p (- P) P -> (3 * C <= int_max)%Z ->
  forall t, t <> [] -> Forall (fun x => x < gn g) t -> ~ is_walk g t ->
  (exists v, v < gn g /\ ~ In v t) ->
  extension_unitary_gain g t c p = Throw InvalidArgument /\
  forall quota z, total_prize_of_tour p t = Ok z -> (z < quota)%Z ->
    extension_until_prize_feasible g t c p quota = Throw InvalidArgument.
Proof. exact gain_not_walk. Qed.
Print Assumptions C08_not_a_walk.

Example C08_not_a_walk_case : let g := mkGraph 4 [(0,1);(1,2);(0,3);(1,3)] in
  costs_within g [1;1;1;1]%Z (-1) 1 /\ Forall (fun x => x < gn g) [0;1;2;0] /\ ~ is_walk g [0;1;2;0] /\
  extension_until_prize_feasible g [0;1;2;0] [1;1;1;1]%Z [1;1;1;1]%Z 4 = Throw InvalidArgument.
Proof.
  cbn zeta. split; [check|]. split; [check|]. split; [|reflexivity].
  intros H. apply walkb_spec in H. discriminate.
Qed.

(** The empty tour is dereferenced. *)
Theorem C08_empty_tour_refuted : exists g c p quota,
  graph_ok g /\ costs_within g c 1 10 /\ prizes_within g p 1 10 /\
  extension_until_prize_feasible g [] c p quota = UB EmptyList.
Proof. exists kg, kc, kp, 1%Z. check. Qed.
Print Assumptions C08_empty_tour_refuted.

(** ** C49: complete graphs with the triangle inequality *)
Theorem C49_until_complete_metric : forall g c p C P r t quota z,
  costs_within g c (- C) C ->
  (3 * C <= int_max)%Z -> prizes_within g p 1 P -> (Z.of_nat (S (gn g)) * P <= int_max)%Z ->
  (forall u v, u < gn g -> v < gn g -> u <> v -> is_edge g u v) ->
  (forall u v w e1 e2 e3 c1 c2 c3, step_edge g u v e1 -> step_edge g v w e2 -> step_edge g u w e3 ->
     nth_error c e1 = Some c1 -> nth_error c e2 = Some c2 -> nth_error c e3 = Some c3 ->
     (c3 <= c1 + c2)%Z) ->
  closed_tour g r 1 t -> prize_sum p (seq 0 (gn g)) z -> (quota <= z)%Z ->
  exists t' z', extension_until_prize_feasible g t c p quota = Ok t' /\ closed_tour g r 1 t' /\
    tour_prize p t' z' /\ (quota <= z')%Z.
Proof. exact until_complete. Qed.
Print Assumptions C49_until_complete_metric.

Example C49_case : graph_ok kg /\ costs_within kg kc (-10) 10 /\ prizes_within kg kp 1 10 /\
  (forall u v, u < gn kg -> v < gn kg -> u <> v -> is_edge kg u v) /\
  (forall u v w e1 e2 e3 c1 c2 c3, step_edge kg u v e1 -> step_edge kg v w e2 -> step_edge kg u w e3 ->
     nth_error kc e1 = Some c1 -> nth_error kc e2 = Some c2 -> nth_error kc e3 = Some c3 ->
     (c3 <= c1 + c2)%Z) /\
  closed_tour kg 0 1 [0;1;2;0] /\ prize_sum kp (seq 0 5) 20 /\
  extension_until_prize_feasible kg [0;1;2;0] kc kp 20 = Ok [0;3;1;2;4;0].
Proof.
  check.
  - intros u v Hu Hv Hne. simpl in Hu, Hv.
    do 5 (destruct u as [|u]; [do 5 (destruct v as [|v]; [first [lia | check1]|]); lia|]); lia.
  - intros u v w e1 e2 e3 c1 c2 c3 _ _ _ H1 H2 H3.
    assert (Hf : Forall (fun x => 3 <= x <= 6)%Z kc) by (repeat constructor; lia).
    rewrite Forall_forall in Hf. apply nth_error_In in H1, H2, H3. apply Hf in H1, H2, H3. lia.
Qed.

(** ** C50 (refuted): a vertex whose insertion makes the tour cheaper is passed over, because
    the increase of the cost is negative and so is the gain. *)
Theorem C50_profitable_insertion_ignored_refuted : exists g c p r t quota t1 z z1 q q1,
  graph_ok g /\ costs_within g c 1 10 /\ prizes_within g p 1 10 /\ closed_tour g r 2 t /\
  extension_until_prize_feasible g t c p quota = Ok t /\
  tour_prize p t z /\ (z < quota)%Z /\ walk_cost g c t q /\
  (* one insertion gives a tour that meets the quota and costs less *)
  t1 = [0; 3; 1; 2; 0] /\ closed_tour g r 2 t1 /\ tour_prize p t1 z1 /\ (quota <= z1)%Z /\
  walk_cost g c t1 q1 /\ (q1 < q)%Z.
Proof.
  exists (mkGraph 4 [(0,1);(1,2);(2,0);(0,3);(3,1)]), [9;1;1;2;2]%Z, [1;1;1;5]%Z, 0, [0;1;2;0], 8%Z,
    [0;3;1;2;0], 3%Z, 8%Z, 11%Z, 6%Z. check.
Qed.
Print Assumptions C50_profitable_insertion_ignored_refuted.

Theorem C50_negative_increase_never_inserted : forall g c p P, prizes_within g p 0 P -> (P <= int_max)%Z ->
  forall t v i x e1 e2 e3 u w c1 c2 c3, best_gain g c p t v i x ->
  nth_error t i = Some u -> nth_error t (S i) = Some w ->
  step_edge g u v e1 -> step_edge g v w e2 -> step_edge g u w e3 ->
  nth_error c e1 = Some c1 -> nth_error c e2 = Some c2 -> nth_error c e3 = Some c3 ->
  (int_min <= c1 + c2 - c3)%Z -> (0 <= c1 + c2 - c3)%Z.
Proof.
  intros g c p P [Hl Hf] HP t v i x e1 e2 e3 u w c1 c2 c3 (Hga & Hpos & _) Hu Hw S1 S2 S3 E1 E2 E3 Hb.
  destruct (Z_lt_le_dec (c1 + c2 - c3) 0) as [Hneg|]; [|auto]. exfalso.
  destruct Hga as (Hv & Hn & u' & w' & Hu' & Hw' & f1 & f2 & f3 & d1 & d2 & d3 & q & A1 & A2 & A3 & A4 & A5 & A6 & A7 & ->).
  assert (u' = u) by congruence. assert (w' = w) by congruence. subst u' w'.
  pose proof (step_edge_unique _ _ _ _ _ A1 S1). pose proof (step_edge_unique _ _ _ _ _ A2 S2).
  pose proof (step_edge_unique _ _ _ _ _ A3 S3). subst f1 f2 f3.
  assert (d1 = c1) by congruence. assert (d2 = c2) by congruence. assert (d3 = c3) by congruence. subst.
  rewrite Forall_forall in Hf. pose proof (nth_error_In _ _ A7) as Hq. apply Hf in Hq.
  unfold int_min, int_max in *. rewrite f_div_int_neg in Hpos; [discriminate| |]; lia.
Qed.
Print Assumptions C50_negative_increase_never_inserted.

(** When every possible insertion lowers the cost, neither extension inserts anything. *)
Theorem C50_only_profitable_stuck : forall g c p C P, costs_within g c (- C) C -> (3 * C <= int_max)%Z ->
  prizes_within g p 0 P -> (0 <= P)%Z -> (P <= int_max)%Z -> (Z.of_nat (S (gn g)) * P <= int_max)%Z ->
  forall r t, closed_tour g r 1 t ->
  (forall i u w v e1 e2 e3 c1 c2 c3, v < gn g -> ~ In v t ->
     nth_error t i = Some u -> nth_error t (S i) = Some w ->
     step_edge g u v e1 -> step_edge g v w e2 -> step_edge g u w e3 ->
     nth_error c e1 = Some c1 -> nth_error c e2 = Some c2 -> nth_error c e3 = Some c3 ->
     (c1 + c2 - c3 < 0)%Z) ->
  extension_unitary_gain g t c p = Ok t /\
  forall quota, extension_until_prize_feasible g t c p quota = Ok t.
Proof. exact only_profitable_stuck. Qed.
Print Assumptions C50_only_profitable_stuck.

Example C50_only_profitable_stuck_case : let g := mkGraph 4 [(0,1);(1,2);(2,0);(0,3);(3,1)] in
  let c := [9;1;1;2;2]%Z in let t := [0;1;2;0] in
  costs_within g c (-9) 9 /\ prizes_within g [1;1;1;5]%Z 0 5 /\ closed_tour g 0 1 t /\
  (forall i u w v e1 e2 e3 c1 c2 c3, v < gn g -> ~ In v t ->
     nth_error t i = Some u -> nth_error t (S i) = Some w ->
     step_edge g u v e1 -> step_edge g v w e2 -> step_edge g u w e3 ->
     nth_error c e1 = Some c1 -> nth_error c e2 = Some c2 -> nth_error c e3 = Some c3 ->
     (c1 + c2 - c3 < 0)%Z) /\
  step_edge g 0 3 3 /\ step_edge g 3 1 4 /\ step_edge g 0 1 0 /\
  extension_unitary_gain g t c [1;1;1;5]%Z = Ok t.
Proof.
  cbn zeta. split; [check|]. split; [check|]. split; [check|]. split.
  - intros i u w v e1 e2 e3 c1 c2 c3 Hv Hn Hu Hw A1 A2 A3 E1 E2 E3.
    assert (v = 3) by (simpl in Hv, Hn; lia). subst v.
    apply find_edge_step in A1, A2, A3.
    destruct i as [|[|[|i]]]; simpl in Hu, Hw; [| | |destruct i; discriminate].
    + injection Hu as <-. injection Hw as <-. injection A1 as <-. injection A2 as <-. injection A3 as <-.
      injection E1 as <-. injection E2 as <-. injection E3 as <-. lia.
    + injection Hu as <-. injection Hw as <-. discriminate A2.
    + injection Hu as <-. injection Hw as <-. discriminate A1.
  - split; [apply find_edge_step; reflexivity|]. split; [apply find_edge_step; reflexivity|].
    split; [apply find_edge_step; reflexivity|vm_compute; reflexivity].
Qed.

(** ** C51 (refuted): with one outside vertex its gain is the average, so it is never above
    the average and nothing is inserted. *)
Theorem C51_single_candidate_refuted : exists g c p r t v i x,
  graph_ok g /\ costs_within g c 1 10 /\ prizes_within g p 1 10 /\ closed_tour g r 2 t /\
  best_gain g c p t v i x /\ extension_unitary_gain g t c p = Ok t.
Proof.
  set (g := mkGraph 4 [(0,1);(1,2);(2,0);(0,3);(3,1)]). set (c := [2;1;1;2;2]%Z). set (p := [1;1;1;5]%Z).
  exists g, c, p, 0, [0;1;2;0], 3, 0, (f_div (f_of_int 5) (f_of_int 2)).
  split; [check|]. split; [check|]. split; [check|]. split; [check|]. split; [|check].
  assert (Hg3 : gain_at g c p [0;1;2;0] 3 0 (f_div (f_of_int 5) (f_of_int 2))).
  { split; [simpl; lia|]. split; [simpl; lia|]. exists 0, 1. split; [auto|]. split; [auto|].
    exists 3, 4, 0, 2%Z, 2%Z, 2%Z, 5%Z.
    split; [apply find_edge_step; reflexivity|]. split; [apply find_edge_step; reflexivity|].
    split; [apply find_edge_step; reflexivity|]. repeat (split; [reflexivity|]). reflexivity. }
  split; [auto|]. split; [vm_compute; reflexivity|].
  intros v' i' x' Hg'. pose proof Hg' as (Hv & Hn & u & w & Hu & Hw & e1 & e2 & e3 & c1 & c2 & c3 & q & A1 & A2 & _).
  assert (v' = 3). { simpl in Hv, Hn. lia. } subst v'.
  assert (i' = 0).
  { destruct i' as [|[|[|i']]]; auto; exfalso; simpl in Hu, Hw.
    - injection Hu as <-. injection Hw as <-. apply find_edge_step in A2. discriminate.
    - injection Hu as <-. injection Hw as <-. apply find_edge_step in A1. discriminate.
    - destruct i'; discriminate. }
  subst i'. rewrite (gain_at_fun g c p _ _ _ _ _ Hg' Hg3). split; [vm_compute; reflexivity|].
  intros [H|[_ H]]; lia.
Qed.
Print Assumptions C51_single_candidate_refuted.

(** For every graph and tour with at most one vertex outside: nothing is inserted, whatever
    its gain is. *)
Theorem C51_single_candidate_never_inserted : forall g c p C P,
  costs_within g c (- C) C -> prizes_within g p (- P) P -> (3 * C <= int_max)%Z -> (P <= int_max)%Z ->
  forall r t v, closed_tour g r 1 t -> (forall u, u < gn g -> ~ In u t -> u = v) ->
  extension_unitary_gain g t c p = Ok t.
Proof. intros g c p C P Hc Hp H3 HP r t v Ht. exact (single_candidate g c p C P Hc Hp H3 r t v Ht HP). Qed.
Print Assumptions C51_single_candidate_never_inserted.

Example C51_single_candidate_case : let g := mkGraph 4 [(0,1);(1,2);(2,0);(0,3);(3,1)] in
  costs_within g [2;1;1;2;1]%Z (-2) 2 /\ prizes_within g [1;1;1;1000000007]%Z (-1000000007) 1000000007 /\
  closed_tour g 0 1 [0;1;2;0] /\ (forall u, u < gn g -> ~ In u [0;1;2;0] -> u = 3) /\
  extension_unitary_gain g [0;1;2;0] [2;1;1;2;1]%Z [1;1;1;1000000007]%Z = Ok [0;1;2;0].
Proof.
  cbn zeta. split; [check|]. split; [check|]. split; [check|].
  split; [intros u; simpl; lia|vm_compute; reflexivity].
Qed.

(** What holds instead: something is inserted exactly when some positive gain is above the
    average. *)
Theorem C51_inserts_iff_above_average : forall g c p C P,
  costs_within g c (- C) C -> prizes_within g p (- P) P -> (3 * C <= int_max)%Z ->
  forall r t, closed_tour g r 1 t ->
  exists t' a, extension_unitary_gain g t c p = Ok t' /\ average_gain g c p t a /\
    (t' <> t <-> exists v i x, gain_at g c p t v i x /\ f_lt f_zero x = true /\ f_lt a x = true).
Proof. exact inserts_iff. Qed.
Print Assumptions C51_inserts_iff_above_average.

Example C51_inserts_case : costs_within kg kc (-10) 10 /\ prizes_within kg kp (-10) 10 /\
  closed_tour kg 0 1 [0;1;2;0] /\ [0;3;1;2;0] <> [0;1;2;0] /\
  extension_unitary_gain kg [0;1;2;0] kc kp = Ok [0;3;1;2;0].
Proof. split; [check|]. split; [check|]. split; [check|]. split; [discriminate|vm_compute; reflexivity]. Qed.
