(** * Properties_Collapse: C03, C06, C10, C48 *)
From Verif Require Import M_Extension Spec_Combined P_Combined.
From Verif Require Import Base Graph Spec M_Walk M_Graph M_Dijkstra M_Collapse
  P_Base P_Dijkstra P_Collapse P_Check.
Open Scope nat_scope.

(** ** C10: dijkstraShortestPathBlacklist *)
(** For every tie-breaking of the priority queue.  With parallel edges a step may use any of
    them, so the cost of the returned walk is over some choice of edges. *)
Theorem C10_dijkstra_blacklist : forall tb, good_pick tb -> forall g c s t mark C,
  graph_ok g -> costs_within g c 0 C -> (0 <= C)%Z -> (Z.of_nat (gn g) * C < int_max)%Z ->
  length mark = gn g -> s < gn g -> t < gn g ->
  exists found st, dijkstra_blacklist tb g c s t mark = Ok (found, st) /\
  if found : bool then
    exists path z, path_in_tree_from_parents (d_pred st) t = Ok path /\
      path_via (fun v => nth_error mark v = Some false) s t path /\ NoDup path /\
      any_cost g c path z /\ Forall (fun v => v < gn g) path /\
      nth_error (d_dist st) t = Some z /\
      forall w z', path_via (fun v => nth_error mark v = Some false) s t w ->
        any_cost g c w z' -> (z <= z')%Z
  else forall w, is_walk g w -> path_via (fun v => nth_error mark v = Some false) s t w -> False.
Proof. exact dijkstra_spec. Qed.
Print Assumptions C10_dijkstra_blacklist.

Theorem C10_dijkstra_simple_graph : forall tb g c s t mark C, good_pick tb ->
  graph_ok g -> no_parallel g -> costs_within g c 0 C -> (0 <= C)%Z ->
  (Z.of_nat (gn g) * C < int_max)%Z ->
  length mark = gn g -> s < gn g -> t < gn g ->
  exists found st, dijkstra_blacklist tb g c s t mark = Ok (found, st) /\
  if found : bool then
    exists path z, path_in_tree_from_parents (d_pred st) t = Ok path /\
      path_via (fun v => nth_error mark v = Some false) s t path /\ NoDup path /\
      walk_cost g c path z /\ nth_error (d_dist st) t = Some z /\
      forall w z', path_via (fun v => nth_error mark v = Some false) s t w ->
        walk_cost g c w z' -> (z <= z')%Z
  else forall w, is_walk g w -> ~ path_via (fun v => nth_error mark v = Some false) s t w.
Proof. exact dijkstra_simple. Qed.
Print Assumptions C10_dijkstra_simple_graph.

(** There is such a tie-breaking. *)
Theorem C10_pick_exists : good_pick pick_first.
Proof. exact pick_first_good. Qed.
Print Assumptions C10_pick_exists.

Definition dg := mkGraph 6 [(0,1);(1,2);(2,5);(0,3);(3,4);(4,5);(1,4);(0,5)].
Definition dc := [1;1;1;2;2;2;1;9]%Z.
Definition dmark := [false;false;true;false;false;false].

Example C10_case :
  graph_ok dg /\ costs_within dg dc 0 9 /\
  exists st path, dijkstra_blacklist pick_first dg dc 0 5 dmark = Ok (true, st) /\
    path_in_tree_from_parents (d_pred st) 5 = Ok path /\ path = [0;1;4;5] /\
    nth_error (d_dist st) 5 = Some 4%Z.
Proof. check. do 2 eexists. repeat (split; [vm_compute; reflexivity|]). vm_compute. reflexivity. Qed.

Example C10_case_unreachable : exists st,
  dijkstra_blacklist pick_first dg dc 0 5 [false;true;true;true;true;true] = Ok (false, st).
Proof. eexists. vm_compute. reflexivity. Qed.

(** ** C03: collapse *)
Theorem C03_collapse_sound : forall g c p root C P,
  graph_ok g -> costs_within g c 0 C -> prizes_within g p 0 P -> (0 <= C)%Z -> (0 <= P)%Z ->
  (2 * (Z.of_nat (S (gn g)) * C) <= int_max)%Z -> (3 * (Z.of_nat (S (gn g)) * P) <= int_max)%Z ->
  forall tb, good_pick tb -> forall t s m quota shortest,
  closed_tour g s m t -> m <= 2 -> In root t ->
  exists t' z z', collapse tb g t c p quota root shortest = Ok t' /\
    closed_tour g root m t' /\
    walk_cost g c t z /\ walk_cost g c t' z' /\ (z' <= z)%Z /\
    (forall pz, tour_prize p t pz -> (quota <= pz)%Z ->
        exists pz', tour_prize p t' pz' /\ (quota <= pz')%Z) /\
    (forall pz, tour_prize p t pz -> (pz < quota)%Z -> t' = reorder_tour_from_root t root) /\
    (forall i w x ext zw ze, i < length t -> quota_path p quota t i w x -> In root w ->
        vertex_collapse g p quota w ext -> walk_cost g c w zw -> walk_cost g c ext ze ->
        (z' <= zw + ze)%Z).
Proof. exact collapse_ok. Qed.
Print Assumptions C03_collapse_sound.

Definition cg := mkGraph 6 [(0,1);(1,2);(2,3);(3,4);(4,0);(1,5);(5,0);(3,0)].
Definition cc := [1;2;9;9;4;2;2;3]%Z.
Definition cp := [1;5;4;3;2;4]%Z.

Example C03_case :
  graph_ok cg /\ costs_within cg cc 0 9 /\ prizes_within cg cp 0 5 /\
  tour_from cg 0 [0;1;2;3;4;0] /\ tour_prize cp [0;1;2;3;4;0] 15 /\
  walk_cost cg cc [0;1;2;3;4;0] 25 /\
  collapse pick_first cg [0;1;2;3;4;0] cc cp 10 0 false = Ok [0;1;5;0] /\
  walk_cost cg cc [0;1;5;0] 5 /\ tour_prize cp [0;1;5;0] 10.
Proof. check. Qed.

Example C03_case_shortest :
  tour_from cg 0 [0;1;2;3;4;0] /\
  collapse pick_first cg [0;1;2;3;4;0] cc cp 10 0 true = Ok [0;1;5;0].
Proof. check. Qed.

(** With negative prizes the one-vertex path from a vertex to itself counts as a collapse and
    the result is no closed tour any more. *)
Theorem C03_negative_prize_refuted : exists g c p root t quota t',
  graph_ok g /\ costs_within g c 0 10 /\ prizes_within g p (-10) 10 /\
  tour_from g root t /\
  collapse pick_first g t c p quota root true = Ok t' /\ ~ tour_from g root t'.
Proof.
  exists (mkGraph 3 [(0,1);(1,2);(2,0)]), [1;1;1]%Z, [-1;5;5]%Z, 0, [0;1;2;0], 0%Z, [0].
  split; [check|]. split; [check|]. split; [check|]. split; [check|]. split; [vm_compute; reflexivity|].
  intros (vs & E & _ & H & _). destruct vs as [|v vs]; [simpl in H; lia|].
  apply (f_equal (@length nat)) in E. cbn [length app] in E. lia.
Qed.
Print Assumptions C03_negative_prize_refuted.

(** A negative cost met by the shortest-path search: [boost::negative_edge] leaves collapse. *)
Theorem C03_negative_cost_refuted : exists g c p root t quota,
  graph_ok g /\ costs_within g c (-10) 10 /\ prizes_within g p 0 10 /\
  tour_from g root t /\
  collapse pick_first g t c p quota root true = Throw NegativeEdge.
Proof.
  exists (mkGraph 4 [(0,1);(1,2);(2,0);(1,3)]), [1;1;1;-1]%Z, [1;1;1;1]%Z, 0, [0;1;2;0], 3%Z.
  check.
Qed.
Print Assumptions C03_negative_cost_refuted.

(** ** C06: pathExtensionCollapse *)
Theorem C06_combined_sound : forall g c p root C P,
  graph_ok g -> costs_within g c 0 C -> prizes_within g p 0 P -> (0 <= C)%Z -> (0 <= P)%Z ->
  (2 * (Z.of_nat (S (gn g)) * C) <= int_max)%Z -> (3 * (Z.of_nat (S (gn g)) * P) <= int_max)%Z ->
  forall tb, good_pick tb -> (Z.of_nat (gn g) <= int_max)%Z ->
  forall m quota depth shortest step_size t,
  1 <= m <= 2 -> (step_size < int_max)%Z -> closed_tour g root m t ->
  exists t', path_extension_collapse tb g t c p quota root shortest depth step_size = Ok t' /\
    (t' = [] \/ closed_tour g root m t' /\ exists z, tour_prize p t' z /\ (quota <= z)%Z) /\
    (forall z, tour_prize p t z -> (quota <= z)%Z -> exists x y,
       t' <> [] /\ walk_cost g c t x /\ walk_cost g c t' y /\ (y <= x)%Z).
Proof. exact combined_ok. Qed.
Print Assumptions C06_combined_sound.

(** What is tried: with a tour below the quota the step sizes 1, 2, ..., [step_size] in turn until
    the quota is reached, the empty list only if none of them reaches it; then the best tour is
    extended with the step sizes 1, 2, ..., [step_size] and collapsed, and kept if cheaper. *)
Theorem C06_rounds : forall g c p root C P,
  graph_ok g -> costs_within g c 0 C -> prizes_within g p 0 P -> (0 <= C)%Z -> (0 <= P)%Z ->
  (2 * (Z.of_nat (S (gn g)) * C) <= int_max)%Z -> (3 * (Z.of_nat (S (gn g)) * P) <= int_max)%Z ->
  forall tb, good_pick tb -> (Z.of_nat (gn g) <= int_max)%Z ->
  forall m quota depth shortest step_size, 1 <= m <= 2 -> (step_size < int_max)%Z ->
  let ext_until k a b := path_extension_until g a c p root quota k depth = Ok b in
  let ext k a b := path_extension g a c p root k depth = Ok b in
  let col a b := collapse tb g a c p quota root shortest = Ok b in
  forall t, closed_tour g root m t ->
  exists t', path_extension_collapse tb g t c p quota root shortest depth step_size = Ok t' /\
  exists r, (enough_prize p quota t /\ r = Some t \/
             ~ enough_prize p quota t /\ tries ext_until (enough_prize p quota) step_size 1 t r) /\
    match r with
    | None => t' = []
    | Some t0 => exists b, col t0 b /\ rounds ext col (cheaper_than g c) step_size 1 b t'
    end.
Proof. exact combined_rounds. Qed.
Print Assumptions C06_rounds.

Theorem C06_single_vertex : forall tb g c p root quota shortest depth step_size,
  (0 < quota)%Z ->
  path_extension_collapse tb g [root] c p quota root shortest depth step_size = Ok [].
Proof. exact combined_single. Qed.
Print Assumptions C06_single_vertex.

(** Here the input is below the quota; it is extended and then collapsed. *)
Example C06_case :
  graph_ok cg /\ costs_within cg cc 0 9 /\ prizes_within cg cp 0 5 /\
  closed_tour cg 0 1 [0;1;0] /\ tour_prize cp [0;1;0] 6 /\
  path_extension_collapse pick_first cg [0;1;0] cc cp 10 0 true 4 2 = Ok [0;5;1;0] /\
  path_extension_collapse pick_first cg [0;1;0] cc cp 100 0 true 4 2 = Ok [].
Proof. check. Qed.

(** ** C48: collapse considers every single-vertex collapse *)
Theorem C48_collapse_locally_optimal : forall g c p root C P,
  graph_ok g -> costs_within g c 0 C -> prizes_within g p 0 P -> (0 <= C)%Z -> (0 <= P)%Z ->
  (2 * (Z.of_nat (S (gn g)) * C) <= int_max)%Z -> (3 * (Z.of_nat (S (gn g)) * P) <= int_max)%Z ->
  forall tb, good_pick tb -> forall t s quota shortest,
  tour_from g s t -> In root t ->
  forall i w x ext zw ze, i < length t -> quota_path p quota t i w x -> In root w ->
    vertex_collapse g p quota w ext -> walk_cost g c w zw -> walk_cost g c ext ze ->
  exists t' z', collapse tb g t c p quota root shortest = Ok t' /\ walk_cost g c t' z' /\
    (z' <= zw + ze)%Z.
Proof. exact collapse_locally_optimal. Qed.
Print Assumptions C48_collapse_locally_optimal.

Example C48_case : quota_path cp 10 [0;1;2;3;4;0] 0 [0;1] 2 /\
  vertex_collapse cg cp 10 [0;1] [1;5;0] /\ walk_cost cg cc [0;1] 1 /\ walk_cost cg cc [1;5;0] 4.
Proof.
  split; [|split; [|check]].
  - split; [|split; [discriminate|split; [simpl; lia|]]].
    + intros q Hq. cbn [length app] in Hq. do 3 (destruct q as [|q]; [reflexivity|]). lia.
    + exists 6%Z, 4%Z. split; [check|]. split; [reflexivity|]. lia.
  - exists 0, 1, [], 5. split; [reflexivity|]. split; [reflexivity|].
    split; [simpl; lia|]. split; [apply edgeb_spec; reflexivity|]. split; [apply edgeb_spec; reflexivity|].
    exists 10%Z. split; [check|lia].
Qed.
