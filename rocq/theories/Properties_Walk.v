(** * Properties_Walk: C01, C02, C09 *)
From Coq Require Import Permutation.
From Verif Require Import Base Graph Spec M_Walk M_Graph P_Base P_Walk P_BFS P_DFS P_Check.

(** A concrete graph for the examples: a 4-cycle 0-1-2-3 with a chord 0-2 and a pendant
    vertex 4.  (Not a model of anything in /repo.) *)
Definition ex_g : graph := mkGraph 5 [(0,1);(1,2);(2,3);(3,0);(0,2);(3,4)].
Definition ex_c : list Z := [3;4;5;6;1;9]%Z.
Definition ex_p : list Z := [0;7;8;2;1]%Z.

(** ** C01 *)
Theorem C01_reorder_rotates : forall g s t r, tour_from g s t -> In r t ->
  let t' := reorder_tour_from_root t r in
  tour_from g r t' /\ same_cycle t t' /\
  Permutation (removelast t) (removelast t') /\
  (forall c z, walk_cost g c t z -> walk_cost g c t' z) /\
  (forall p z, tour_prize p t z -> tour_prize p t' z) /\
  reorder_tour_from_root t' r = t'.
Proof. exact reorder_spec. Qed.
Print Assumptions C01_reorder_rotates.

Example C01_case : tour_from ex_g 1 [1;2;3;0;1] /\ In 3 [1;2;3;0;1] /\
  reorder_tour_from_root [1;2;3;0;1] 3 = [3;0;1;2;3].
Proof. check. Qed.

(** If the root is not on the tour the result is neither closed nor a walk of the graph,
    and does not start at the root: the precondition [In r t] cannot be dropped. *)
Theorem C01_reorder_missing_root_refuted : exists g s t r,
  tour_from g s t /\ ~ In r t /\ r < gn g /\
  ~ is_walk g (reorder_tour_from_root t r) /\
  hd_error (reorder_tour_from_root t r) <> Some r /\
  In r (reorder_tour_from_root t r).
Proof. exists ex_g, 1, [1;2;0;1], 4. check. Qed.
Print Assumptions C01_reorder_missing_root_refuted.

(** ** C02 *)
Theorem C02_edges_in_walk_exact : forall g w,
  Forall (fun v => v < gn g) w -> is_walk g w ->
  exists es, get_edges_in_walk g w = Ok es /\ length es = length w - 1 /\
    forall i u v e, nth_error w i = Some u -> nth_error w (S i) = Some v ->
      nth_error es i = Some e -> step_edge g u v e.
Proof. exact get_edges_in_walk_exact. Qed.
Print Assumptions C02_edges_in_walk_exact.

Theorem C02_edges_in_walk_throws_iff : forall g w,
  Forall (fun v => v < gn g) w ->
  get_edges_in_walk g w = Throw EdgeNotFoundException <-> ~ is_walk g w.
Proof. exact get_edges_in_walk_throws_iff. Qed.
Print Assumptions C02_edges_in_walk_throws_iff.

Theorem C02_total_cost_exact : forall g c w C,
  costs_within g c (- C) C -> Forall (fun v => v < gn g) w -> is_walk g w ->
  (Z.of_nat (length w) * C <= int_max)%Z ->
  exists z, total_cost g c w = Ok z /\ walk_cost g c w z.
Proof. exact total_cost_ok. Qed.
Print Assumptions C02_total_cost_exact.

Theorem C02_total_cost_throws_iff : forall g c w C,
  costs_within g c (- C) C -> Forall (fun v => v < gn g) w ->
  (Z.of_nat (length w) * C <= int_max)%Z ->
  total_cost g c w = Throw EdgeNotFoundException <-> ~ is_walk g w.
Proof. exact total_cost_throws_iff. Qed.
Print Assumptions C02_total_cost_throws_iff.

Theorem C02_total_prize_exact : forall p P l,
  Forall (fun x => - P <= x <= P)%Z p -> Forall (fun v => v < length p) l ->
  (Z.of_nat (length l) * P <= int_max)%Z ->
  exists z, total_prize p l = Ok z /\ prize_sum p l z.
Proof. exact total_prize_ok. Qed.
Print Assumptions C02_total_prize_exact.

Theorem C02_total_prize_of_tour_exact : forall p P t,
  Forall (fun x => - P <= x <= P)%Z p -> Forall (fun v => v < length p) t -> t <> [] ->
  (Z.of_nat (length t) * P <= int_max)%Z -> (0 <= P)%Z ->
  exists z, total_prize_of_tour p t = Ok z /\ tour_prize p t z.
Proof. exact total_prize_of_tour_ok. Qed.
Print Assumptions C02_total_prize_of_tour_exact.

Theorem C02_total_prize_of_graph_exact : forall g p P,
  prizes_within g p (- P) P -> (Z.of_nat (gn g) * P <= int_max)%Z ->
  exists z, total_prize_of_graph g p = Ok z /\ prize_sum p (seq 0 (gn g)) z.
Proof. exact total_prize_of_graph_ok. Qed.
Print Assumptions C02_total_prize_of_graph_exact.

Example C02_case :
  costs_within ex_g ex_c (-10) 10 /\ is_walk ex_g [1;2;3;0;1] /\
  total_cost ex_g ex_c [1;2;3;0;1] = Ok 18%Z /\
  ~ is_walk ex_g [1;3] /\ total_cost ex_g ex_c [1;3] = Throw EdgeNotFoundException /\
  total_prize_of_tour ex_p [1;2;3;0;1] = Ok 17%Z.
Proof. check. Qed.

(** Without a bound on the costs the sum overflows: the 32-bit accumulation is UB. *)
Theorem C02_total_cost_overflow_refuted : exists g c w,
  is_walk g w /\ costs_within g c 0 int_max /\ total_cost g c w = UB IntOverflow.
Proof. exists ex_g, [2147483647;1;1;1;1;1]%Z, [0;1;2]. check. Qed.
Print Assumptions C02_total_cost_overflow_refuted.

(** ** C09 *)
Theorem C09_bfs_exact : forall g s m0 p0 limit,
  graph_ok g -> length m0 = gn g -> length p0 = gn g -> s < gn g ->
  (Z.of_nat (gn g) <= int_max)%Z ->
  let free v := nth_error m0 v = Some false in
  exists m p, breadth_first_search g s m0 p0 limit = Ok (m, p) /\
    (forall v, nth_error m v = Some true <->
       nth_error m0 v = Some true \/ v = s \/
       exists d, (Z.of_nat d <= limit)%Z /\ within g free s d v) /\
    (forall v, nth_error m v = Some true -> v = s \/ free v ->
       exists path, path_in_tree_from_parents p v = Ok path /\
         is_walk g path /\ NoDup path /\ hd_error path = Some s /\ last path s = v /\
         (forall w, In w (tl path) -> free w) /\
         dist g free s (length path - 1) v /\
         (Z.of_nat (length path - 1) <= Z.max limit 0)%Z).
Proof. exact bfs_spec. Qed.
Print Assumptions C09_bfs_exact.

(** 0 is blocked from 2 (marked beforehand); 4 is at distance 2 from 0. *)
Example C09_case :
  graph_ok ex_g /\
  breadth_first_search ex_g 0 [false;false;true;false;false] [9;9;9;9;9] 2 =
    Ok ([true;true;true;true;true], [0;0;9;0;3]) /\
  breadth_first_search ex_g 0 [false;false;true;false;false] [9;9;9;9;9] 1 =
    Ok ([true;true;true;true;false], [0;0;9;0;9]) /\
  path_in_tree_from_parents [0;0;9;0;3] 4 = Ok [0;3;4].
Proof. check. Qed.

(** The sibling [depthFirstSearch]: everything marked is within the limit; everything reachable
    is marked if the limit is at least the number of vertices less one; parents form a tree
    (without an entry for the source). *)
Theorem C09_dfs : forall g, graph_ok g -> forall s m0 p0 limit,
  length m0 = gn g -> length p0 = gn g -> s < gn g ->
  let free v := nth_error m0 v = Some false in
  exists m p, depth_first_search g limit s (m0, p0) = Ok (m, p) /\
    (forall v, nth_error m v = Some true -> nth_error m0 v = Some true \/
       exists d, d <= limit /\ within g free s d v) /\
    (forall v, nth_error m0 v = Some true \/ v = s -> nth_error m v = Some true /\ nth_error p v = nth_error p0 v) /\
    (gn g <= S limit -> forall d v, within g free s d v -> nth_error m v = Some true) /\
    (forall v, nth_error m v = Some true -> free v -> v <> s ->
       exists u, nth_error p v = Some u /\ is_edge g u v /\ (u = s \/ nth_error m u = Some true /\ free u)).
Proof. exact dfs_spec. Qed.
Print Assumptions C09_dfs.

Example C09_dfs_case :
  depth_first_search ex_g 4 0 ([false;false;true;false;false], [9;9;9;9;9]) =
    Ok ([true;true;true;true;true], [9;0;9;0;3]) /\
  depth_first_search ex_g 1 0 ([false;false;true;false;false], [9;9;9;9;9]) =
    Ok ([true;true;true;true;false], [9;0;9;0;9]).
Proof. check. Qed.

(** With a smaller limit [depthFirstSearch] does not have this property: a
    vertex within the limit may stay unmarked because a longer branch used it up first,
    and the parent of the source is never set, so paths cannot be read back. *)
Theorem C09_dfs_depth_limit_refuted : exists g s n v d,
  graph_ok g /\ within g (fun _ => True) s d v /\ d <= n /\
  exists m p, depth_first_search g n s (repeat false (gn g), repeat 0 (gn g)) = Ok (m, p) /\
    nth_error m v = Some false.
Proof.
  exists (mkGraph 4 [(0,1);(1,2);(0,2);(2,3)]), 0, 2, 3, 2.
  split; [check1|]. split.
  { eapply within_S with (u := 2); [eapply within_S with (u := 0); [constructor| |exact I]| |exact I]; check1. }
  split; [lia|]. eexists; eexists. split; [vm_compute; reflexivity|reflexivity].
Qed.
Print Assumptions C09_dfs_depth_limit_refuted.
