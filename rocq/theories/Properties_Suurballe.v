(** * Properties_Suurballe: pre/post order numbers, adjusted costs and Suurballe's algorithm
    (C41, C42, C55) *)
From Verif Require Import Base M_Python M_PyCycle M_Suurballe Spec_Python Spec_Suurballe P_Python P_Suurballe P_SuurFinal.
Open Scope nat_scope.

(** ** C41: the ancestor test *)

(** On a rooted tree that is no deeper than the recursion limit, preorder and postorder list
    every vertex once (parents first / last) and is_ancestor is exact. *)
Theorem C41_is_ancestor T root depth nodes : rooted_tree T root -> (forall l, chain T root l -> length l <= depth) ->
  exists o1 pre o2 post,
    preorder depth nodes T root = Ok (o1, pre) /\ postorder depth nodes T root = Ok (o2, post) /\
    (NoDup o1 /\ forall v, In v o1 <-> descends T root v) /\
    (NoDup o2 /\ forall v, In v o2 <-> descends T root v) /\
    (forall p c, In (p, c) T -> comes_before o1 p c /\ comes_before o2 c p) /\
    (forall v, descends T root v -> dget pre v = Some (Z.of_nat (find_pos v o1)) /\
                                    dget post v = Some (Z.of_nat (find_pos v o2))) /\
    (forall a d, descends T root a -> descends T root d ->
       exists b, is_ancestor pre post a d = Ok b /\ (b = true <-> descends T a d)).
Proof. intros R. exact (numbering_ok T root R depth nodes). Qed.
Print Assumptions C41_is_ancestor.

(** On anything deeper both raise RecursionError. *)
Theorem C41_recursion_limit T root depth nodes l : chain T root l -> depth < length l ->
  preorder depth nodes T root = Throw RecursionErrorPy /\ postorder depth nodes T root = Throw RecursionErrorPy.
Proof. intros C L. split; [exact (preorder_deep T root l C depth _ L)|exact (postorder_deep T root l C depth _ L)]. Qed.
Print Assumptions C41_recursion_limit.

Definition sb_T : list (nat * nat) := [(7, 3); (3, 5); (3, 0); (7, 2); (0, 9)].
Example C41_example : rooted_tree sb_T 7 /\ (forall l, chain sb_T 7 l -> length l <= 6) /\ chain sb_T 7 [7; 3; 0; 9] /\
  preorder 3 [7; 3; 5; 0; 2; 9] sb_T 7 = Throw RecursionErrorPy /\
  exists pre post,
    preorder 6 [7; 3; 5; 0; 2; 9] sb_T 7 = Ok ([7; 3; 5; 0; 9; 2], pre) /\
    postorder 6 [7; 3; 5; 0; 2; 9] sb_T 7 = Ok ([5; 9; 0; 3; 2; 7], post) /\
    is_ancestor pre post 3 9 = Ok true /\ is_ancestor pre post 5 9 = Ok false /\
    is_ancestor pre post 9 3 = Ok false /\ is_ancestor pre post 0 0 = Ok true.
Proof.
  assert (RT : rooted_tree sb_T 7).
  { split; [apply nodupb_ok; reflexivity|]. split; [cbn; intuition lia|].
    assert (A : descends sb_T 7 3) by (apply (desc_step _ _ 7); [constructor|cbn; auto]).
    intros p c [E|[E|[E|[E|[E|[]]]]]]; inversion E; subst; try exact A; try constructor.
    apply (desc_step _ _ 3); [exact A|cbn; auto]. }
  split; [exact RT|]. split; [intros l C; apply (chain_length _ _ RT) in C; exact C|].
  split; [apply (chain_cons _ 7 3); [cbn; tauto|]; apply (chain_cons _ 3 0); [cbn; tauto|]; apply (chain_cons _ 0 9); [cbn; tauto|]; constructor|]. split; [reflexivity|]. eexists. eexists. split; [vm_compute; reflexivity|]. split; [vm_compute; reflexivity|].
    vm_compute. auto.
Qed.

(** ** C42: adjusted costs *)

(** The shortest paths form a rooted tree on the reachable vertices, and the adjusted cost of
    each of its edges is zero. *)
Theorem C42_shortest_path_tree G s dist paths : directed G ->
  shortest_distances G s dist -> shortest_paths G s dist paths ->
  exists T, tree_edges s (find_parents_in_shortest_path_tree paths) = Ok T /\ rooted_tree T s /\
    (forall v, descends T s v <-> In v (map fst dist)) /\
    (forall u v, In (u, v) T -> exists w du dv, arc G u v w /\ entry dist u du /\ entry dist v dv /\
       adjust_edge_cost w du dv = 0%Z).
Proof.
  intros D SD SP. destruct (shortest_tree G s dist paths SD SP) as (T & E & R & B & P).
  exists T. split; [exact E|]. split; [exact R|]. split; [exact B|].
  intros u v I. destruct (P u v I) as (q & U & V). destruct SP as (NP & _ & W & _).
  destruct (W _ _ U) as (du & EU & DU). destruct (W _ _ V) as (dv & EV & DV).
  destruct (zero_tree_arc G s dist q u v du dv D SD EU EV DU DV) as (w & A & Z).
  exists w, du, dv. auto.
Qed.
Print Assumptions C42_shortest_path_tree.

(** adjust_edge_cost_for_graph succeeds on the reachable part; the adjusted costs are
    non-negative, and the adjusted cost of every walk is its cost plus the distance of its
    start minus the distance of its end. *)
Theorem C42_adjusted_costs G s dist : directed G -> shortest_distances G s dist ->
  exists G', adjust_edge_cost_for_graph (dsubgraph G (fun v => memb v (map fst dist))) dist = Ok G' /\
    (forall u v w', arc G' u v w' <-> exists w du dv, arc G u v w /\ entry dist u du /\ entry dist v dv /\
       w' = (w + du - dv)%Z) /\
    (forall u v w', arc G' u v w' -> (0 <= w')%Z) /\
    (forall u v p du dv z, entry dist u du -> entry dist v dv ->
       dwalk G u v p z <-> dwalk G' u v p (z + du - dv)%Z).
Proof.
  intros D SD. destruct (adjusted_ok G s dist D SD) as (G' & E & _ & PO).
  exists G'. split; [exact E|]. split; [exact PO|]. split.
  - intros u v w' A. apply PO in A. destruct A as (w & du & dv & A & U & V & ->).
    pose proof (nonneg_arc G s dist u v w du dv SD A U V) as X. unfold adjust_edge_cost in X. lia.
  - intros u v p du dv z U V. exact (potential_walk G s dist G' SD PO u v p du dv U V z).
Qed.
Print Assumptions C42_adjusted_costs.

(** edge_disjoint_path_cost is the cost of two walks whenever the tentative distance is their
    adjusted cost. *)
Theorem C42_pair_cost T st target p q a1 a2 G G' s : directed G ->
  shortest_distances G s (t_dist T) -> In target (map fst (t_dist T)) ->
  adjust_edge_cost_for_graph (dsubgraph G (fun v => memb v (map fst (t_dist T)))) (t_dist T) = Ok G' ->
  dwalk G' s target p a1 -> dwalk G' s target q a2 ->
  dget (s_td st) target = Some (a1 + a2)%Z -> (a1 + a2 < py_maxsize)%Z ->
  exists z1 z2, dwalk G s target p z1 /\ dwalk G s target q z2 /\
    edge_disjoint_path_cost T st target = Ok (z1 + z2)%Z.
Proof.
  intros D SD I E. destruct (adjusted_ok G s (t_dist T) D SD) as (G'' & E' & _ & PO).
  assert (G'' = G') by congruence. subst. exact (pair_cost_ok T st target p q a1 a2 G G' s SD PO I).
Qed.
Print Assumptions C42_pair_cost.

(** A graph with a shortest-path tree through 4 and 2. *)
Definition sb_G : dgraph :=
  [(0, [(3, 10%Z); (4, 3%Z)]); (1, [(5, 4%Z)]); (2, [(3, 4%Z)]); (3, [(4, 10%Z); (1, 5%Z)]);
   (4, [(1, 1%Z); (2, 1%Z)]); (5, []); (6, [(0, 1%Z)])].
Definition sb_dist : list (nat * Z) :=
  [(0, 0%Z); (4, 3%Z); (1, 4%Z); (2, 4%Z); (5, 8%Z); (3, 8%Z)].
Definition sb_paths : list (nat * list nat) :=
  [(0, [0]); (3, [0; 4; 2; 3]); (4, [0; 4]); (1, [0; 4; 1]); (2, [0; 4; 2]); (5, [0; 4; 1; 5])].

Example C42_example : directed sb_G /\ asymmetric sb_G /\
  shortest_distances sb_G 0 sb_dist /\ shortest_paths sb_G 0 sb_dist sb_paths /\
  tree_edges 0 (find_parents_in_shortest_path_tree sb_paths) = Ok [(2, 3); (0, 4); (4, 1); (4, 2); (1, 5)] /\
  adjust_edge_cost_for_graph (dsubgraph sb_G (fun v => memb v (map fst sb_dist))) sb_dist =
    Ok [(0, [(3, 2%Z); (4, 0%Z)]); (1, [(5, 0%Z)]); (2, [(3, 0%Z)]); (3, [(4, 15%Z); (1, 9%Z)]);
        (4, [(1, 0%Z); (2, 0%Z)]); (5, [])].
Proof.
  assert (D : directed sb_G) by (apply directedb_ok; vm_compute; reflexivity).
  destruct (shortestb_ok sb_G 0 sb_dist sb_paths D) as (SD & SP); [vm_compute; reflexivity|].
  split; [exact D|]. split; [apply asymmetricb_ok; [exact D|vm_compute; reflexivity]|].
  split; [exact SD|]. split; [exact SP|]. split; vm_compute; reflexivity.
Qed.

(** ** C55: Suurballe's algorithm *)

(** The reported cost is not always the least one: on the graph above two edge-disjoint walks
    of total cost 19 lead to vertex 1, the algorithm reports 34 and extracts a pair that is not
    optimal and not even a pair of paths (4 is visited twice). A list is changed while a for
    loop runs over it (suurballe.py:305,429), so edges are skipped. *)
Theorem C55_not_optimal_refuted : exists G s dist paths T st,
  directed G /\ asymmetric G /\ (forall u v w, arc G u v w -> (0 < w)%Z) /\
  shortest_distances G s dist /\ shortest_paths G s dist paths /\
  suurballe_shortest_vertex_disjoint_paths 100 G s dist paths = Ok (T, st) /\
  (exists p q, disjoint_pair G s 1 p q 19) /\
  edge_disjoint_path_cost T st 1 = Ok 34%Z /\
  extract_suurballe_edge_disjoint_paths T st s 1 = Ok ([0; 3; 1], [0; 4; 2; 3; 4; 1]).
Proof.
  destruct (suurballe_shortest_vertex_disjoint_paths 100 sb_G 0 sb_dist sb_paths) as [(T & st)|e|u|] eqn:E;
    [|exfalso; vm_compute in E; discriminate|exfalso; vm_compute in E; discriminate|exfalso; vm_compute in E; discriminate].
  exists sb_G, 0, sb_dist, sb_paths, T, st. destruct C42_example as (D & AS & SD & SP & _).
  split; [exact D|]. split; [exact AS|]. split.
  { intros u v w (l & I & J). cbn in I.
    repeat (destruct I as [I|I]; [inversion I; subst; cbn in J; intuition; match goal with H : (_, _) = (_, _) |- _ => inversion H; lia end|]).
    destruct I. }
  split; [exact SD|]. split; [exact SP|]. split; [exact E|]. split.
  - exists [0; 3; 1], [0; 4; 1]. split; [cbn; intuition congruence|].
    split; [cbn; repeat constructor; cbn; intuition congruence|].
    split; [cbn; repeat constructor; cbn; intuition congruence|].
    exists 15%Z, 4%Z. split; [apply walkb_ok; vm_compute; reflexivity|].
    split; [apply walkb_ok; vm_compute; reflexivity|reflexivity].
  - vm_compute in E. injection E as <- <-. split; vm_compute; reflexivity.
Qed.
Print Assumptions C55_not_optimal_refuted.

(** A pair can be missed entirely: two disjoint paths to vertex 6 exist, the algorithm reports
    that there are none. *)
Definition sb_G2 : dgraph :=
  [(0, [(4, 1%Z); (5, 1%Z)]); (1, [(3, 1%Z)]); (2, [(3, 2%Z); (4, 1%Z)]); (3, [(4, 3%Z); (6, 3%Z)]);
   (4, [(5, 1%Z); (6, 1%Z)]); (5, [(1, 3%Z)]); (6, [(0, 2%Z); (2, 1%Z)])].
Definition sb_dist2 : list (nat * Z) :=
  [(0, 0%Z); (4, 1%Z); (5, 1%Z); (6, 2%Z); (2, 3%Z); (1, 4%Z); (3, 5%Z)].
Definition sb_paths2 : list (nat * list nat) :=
  [(0, [0]); (4, [0; 4]); (5, [0; 5]); (6, [0; 4; 6]); (1, [0; 5; 1]); (2, [0; 4; 6; 2]);
   (3, [0; 4; 6; 2; 3])].

Theorem C55_pair_missed_refuted : exists G s dist paths T st,
  directed G /\ asymmetric G /\ (forall u v w, arc G u v w -> (0 < w)%Z) /\
  shortest_distances G s dist /\ shortest_paths G s dist paths /\
  suurballe_shortest_vertex_disjoint_paths 100 G s dist paths = Ok (T, st) /\
  (exists p q, disjoint_pair G s 6 p q 10) /\
  edge_disjoint_path_cost T st 6 = Ok py_maxsize /\
  extract_suurballe_edge_disjoint_paths T st s 6 = Ok ([], []).
Proof.
  destruct (suurballe_shortest_vertex_disjoint_paths 100 sb_G2 0 sb_dist2 sb_paths2) as [(T & st)|e|u|] eqn:E;
    [|exfalso; vm_compute in E; discriminate|exfalso; vm_compute in E; discriminate|exfalso; vm_compute in E; discriminate].
  exists sb_G2, 0, sb_dist2, sb_paths2, T, st.
  assert (D : directed sb_G2) by (apply directedb_ok; vm_compute; reflexivity).
  destruct (shortestb_ok sb_G2 0 sb_dist2 sb_paths2 D) as (SD & SP); [vm_compute; reflexivity|].
  split; [exact D|]. split; [apply asymmetricb_ok; [exact D|vm_compute; reflexivity]|]. split.
  { intros u v w (l & I & J). cbn in I.
    repeat (destruct I as [I|I]; [inversion I; subst; cbn in J; intuition; match goal with H : (_, _) = (_, _) |- _ => inversion H; lia end|]).
    destruct I. }
  split; [exact SD|]. split; [exact SP|]. split; [exact E|]. split.
  - exists [0; 4; 6], [0; 5; 1; 3; 6]. split; [cbn; intuition congruence|].
    split; [cbn; repeat constructor; cbn; intuition congruence|].
    split; [cbn; repeat constructor; cbn; intuition congruence|].
    exists 2%Z, 8%Z. split; [apply walkb_ok; vm_compute; reflexivity|].
    split; [apply walkb_ok; vm_compute; reflexivity|reflexivity].
  - vm_compute in E. injection E as <- <-. split; vm_compute; reflexivity.
Qed.
Print Assumptions C55_pair_missed_refuted.

(** The extracted pair need not even be edge-disjoint: both walks use the edge from 3 to 2. *)
Definition sb_G3 : dgraph :=
  [(0, [(7, 1%Z); (6, 1%Z)]); (2, [(4, 1%Z); (6, 1%Z)]); (3, [(2, 1%Z); (4, 3%Z)]); (4, [(5, 1%Z)]);
   (5, [(2, 1%Z)]); (6, [(3, 1%Z); (5, 1%Z)]); (7, [(4, 4%Z); (3, 3%Z)])].
Definition sb_dist3 : list (nat * Z) :=
  [(0, 0%Z); (7, 1%Z); (6, 1%Z); (3, 2%Z); (5, 2%Z); (2, 3%Z); (4, 4%Z)].
Definition sb_paths3 : list (nat * list nat) :=
  [(0, [0]); (7, [0; 7]); (6, [0; 6]); (4, [0; 6; 3; 2; 4]); (3, [0; 6; 3]); (5, [0; 6; 5]);
   (2, [0; 6; 3; 2])].

Theorem C55_not_disjoint_refuted : exists G s dist paths T st,
  directed G /\ asymmetric G /\ (forall u v w, arc G u v w -> (0 < w)%Z) /\
  shortest_distances G s dist /\ shortest_paths G s dist paths /\
  suurballe_shortest_vertex_disjoint_paths 100 G s dist paths = Ok (T, st) /\
  (exists p q, disjoint_pair G s 5 p q 8) /\
  edge_disjoint_path_cost T st 5 = Ok 12%Z /\
  extract_suurballe_edge_disjoint_paths T st s 5 = Ok ([0; 7; 3; 2; 4; 5], [0; 6; 3; 2; 6; 5]).
Proof.
  destruct (suurballe_shortest_vertex_disjoint_paths 100 sb_G3 0 sb_dist3 sb_paths3) as [(T & st)|e|u|] eqn:E;
    [|exfalso; vm_compute in E; discriminate|exfalso; vm_compute in E; discriminate|exfalso; vm_compute in E; discriminate].
  exists sb_G3, 0, sb_dist3, sb_paths3, T, st.
  assert (D : directed sb_G3) by (apply directedb_ok; vm_compute; reflexivity).
  destruct (shortestb_ok sb_G3 0 sb_dist3 sb_paths3 D) as (SD & SP); [vm_compute; reflexivity|].
  split; [exact D|]. split; [apply asymmetricb_ok; [exact D|vm_compute; reflexivity]|]. split.
  { intros u v w (l & I & J). cbn in I.
    repeat (destruct I as [I|I]; [inversion I; subst; cbn in J; intuition; match goal with H : (_, _) = (_, _) |- _ => inversion H; lia end|]).
    destruct I. }
  split; [exact SD|]. split; [exact SP|]. split; [exact E|]. split.
  - exists [0; 6; 5], [0; 7; 4; 5]. split; [cbn; intuition congruence|].
    split; [cbn; repeat constructor; cbn; intuition congruence|].
    split; [cbn; repeat constructor; cbn; intuition congruence|].
    exists 2%Z, 6%Z. split; [apply walkb_ok; vm_compute; reflexivity|].
    split; [apply walkb_ok; vm_compute; reflexivity|reflexivity].
  - vm_compute in E. injection E as <- <-. split; vm_compute; reflexivity.
Qed.
Print Assumptions C55_not_disjoint_refuted.

(** On every graph without self loops in which a vertex with two incoming edges is the only
    predecessor of its successors (every vertex split into a tail and a head, the only graphs
    for which the repository calls the algorithm), no edge is skipped: for every vertex but
    the source that can be reached, the extracted walks use no edge twice, the reported cost is
    their total weight, and no such pair is cheaper; or the cost is sys.maxsize, no walks are
    returned, and every pair weighs at least sys.maxsize more than twice the distance.  Only
    the recursion limit bounds the number of vertices on a shortest path. *)
Theorem C55_split_graphs depth G s dist paths :
  directed G -> (forall u w, ~ arc G u u w) -> In s (map fst G) -> split_like G s ->
  shortest_distances G s dist -> shortest_paths G s dist paths -> paths_within depth paths ->
  exists T st, suurballe_shortest_vertex_disjoint_paths depth G s dist paths = Ok (T, st) /\
    forall t w, entry dist t w -> t <> s ->
      (exists p q z, extract_suurballe_edge_disjoint_paths T st s t = Ok (p, q) /\
         edge_disjoint_path_cost T st t = Ok z /\ disjoint_pair G s t p q z /\
         forall p' q' z', disjoint_pair G s t p' q' z' -> (z <= z')%Z) \/
      (extract_suurballe_edge_disjoint_paths T st s t = Ok ([], []) /\
         edge_disjoint_path_cost T st t = Ok py_maxsize /\
         forall p q z, disjoint_pair G s t p q z -> (2 * w + py_maxsize <= z)%Z).
Proof. exact (suurballe_pairs depth G s dist paths). Qed.
Print Assumptions C55_split_graphs.

(** A shortest path with more vertices than the recursion limit makes it raise RecursionError, on
    every graph. *)
Theorem C55_recursion_limit depth G s dist paths v p :
  directed G -> shortest_distances G s dist -> shortest_paths G s dist paths -> entry paths v p -> depth < length p ->
  suurballe_shortest_vertex_disjoint_paths depth G s dist paths = Throw RecursionErrorPy.
Proof. exact (suurballe_deep depth G s dist paths v p). Qed.
Print Assumptions C55_recursion_limit.

(** A target that cannot be reached has no entry: both questions about it raise KeyError. *)
Theorem C55_unknown_target T st source target : dget (s_td st) target = None -> source <> target ->
  edge_disjoint_path_cost T st target = Throw KeyErrorPy /\
  extract_suurballe_edge_disjoint_paths T st source target = Throw KeyErrorPy.
Proof.
  intros N S. unfold edge_disjoint_path_cost, extract_suurballe_edge_disjoint_paths, dfetch. rewrite N.
  apply Nat.eqb_neq in S. rewrite S. auto.
Qed.
Print Assumptions C55_unknown_target.

(** Removing from a list takes out the first equal element; nothing equal is a ValueError (the
    edges of incident lists, the children). *)
Theorem C55_remove (e : nat * nat) (l : list (nat * nat)) (w : nat) (cs : list nat) :
  (forall r, remove_edge e l = Ok r <-> exists a b, l = a ++ e :: b /\ ~ In e a /\ r = a ++ b) /\
  (~ In e l <-> remove_edge e l = Throw ValueErrorPy) /\
  (forall r, remove_child w cs = Ok r <-> exists a b, cs = a ++ w :: b /\ ~ In w a /\ r = a ++ b) /\
  (~ In w cs <-> remove_child w cs = Throw ValueErrorPy).
Proof.
  destruct (remove_edge_first e l) as (H1 & H2). destruct (remove_child_first w cs) as (H3 & H4). auto.
Qed.
Print Assumptions C55_remove.

(** In the backward traversal an unmarked vertex other than the source needs a parent. *)
Theorem C55_no_parent fuel T st source x path mark : x <> source -> ~ In x mark -> ~ In x (map snd (t_edges T)) ->
  back_loop (S fuel) T st source x path mark = Throw IndexErrorPy.
Proof.
  intros NS NM NT. cbn [back_loop]. apply Nat.eqb_neq in NS. rewrite NS. rewrite (proj2 (P_Base.memb_not_In x mark) NM).
  destruct (predecessors (t_edges T) x) as [|y r] eqn:E; [reflexivity|]. destruct NT.
  assert (I : In y (predecessors (t_edges T) x)) by (rewrite E; left; reflexivity).
  unfold predecessors in I. apply in_map_iff in I. destruct I as ((a & b) & _ & I). apply filter_In in I. destruct I as (I & J).
  cbn in J. apply Nat.eqb_eq in J. subst. apply (in_map snd) in I. exact I.
Qed.
Print Assumptions C55_no_parent.


(** Four vertices 0 (source), 1, 2, 3 with all edges but 0-3, and 4 joined to 3; vertex v has
    the tail 10 + v and the head v.  Two pairs are found, and none to vertex 4. *)
Definition sb_G4 : dgraph :=
  [(10, [(0, 0%Z)]); (11, [(1, 0%Z)]); (12, [(2, 0%Z)]); (13, [(3, 0%Z)]); (14, [(4, 0%Z)]);
   (0, [(11, 1%Z); (12, 4%Z)]); (1, [(10, 1%Z); (12, 2%Z); (13, 5%Z)]);
   (2, [(10, 4%Z); (11, 2%Z); (13, 1%Z)]); (3, [(11, 5%Z); (12, 1%Z); (14, 1%Z)]); (4, [(13, 1%Z)])].
Definition sb_dist4 : list (nat * Z) :=
  [(0, 0%Z); (11, 1%Z); (1, 1%Z); (10, 2%Z); (12, 3%Z); (2, 3%Z); (13, 4%Z); (3, 4%Z); (14, 5%Z); (4, 5%Z)].
Definition sb_paths4 : list (nat * list nat) :=
  [(0, [0]); (11, [0; 11]); (12, [0; 11; 1; 12]); (1, [0; 11; 1]); (10, [0; 11; 1; 10]);
   (13, [0; 11; 1; 12; 2; 13]); (2, [0; 11; 1; 12; 2]); (3, [0; 11; 1; 12; 2; 13; 3]);
   (14, [0; 11; 1; 12; 2; 13; 3; 14]); (4, [0; 11; 1; 12; 2; 13; 3; 14; 4])].

Example C55_split_example : directed sb_G4 /\ (forall u w, ~ arc sb_G4 u u w) /\ In 0 (map fst sb_G4) /\
  split_like sb_G4 0 /\ shortest_distances sb_G4 0 sb_dist4 /\ shortest_paths sb_G4 0 sb_dist4 sb_paths4 /\
  (do '(T, st) <- suurballe_shortest_vertex_disjoint_paths 100 sb_G4 0 sb_dist4 sb_paths4;
   mapM (fun t => do z <- edge_disjoint_path_cost T st t;
                  do pq <- extract_suurballe_edge_disjoint_paths T st 0 t; Ok (z, pq)) [12; 13; 14]) =
  Ok [(7%Z, ([0; 12], [0; 11; 1; 12])); (11%Z, ([0; 11; 1; 13], [0; 12; 2; 13])); (py_maxsize, ([], []))].
Proof.
  assert (D : directed sb_G4) by (apply directedb_ok; vm_compute; reflexivity).
  destruct (shortestb_ok sb_G4 0 sb_dist4 sb_paths4 D) as (SD & SP); [vm_compute; reflexivity|].
  split; [exact D|]. split.
  { intros u w A. assert (AS : asymmetric sb_G4) by (apply asymmetricb_ok; [exact D|vm_compute; reflexivity]). apply (AS u u w w A A). }
  split; [cbn; tauto|]. split; [apply split_likeb_ok; vm_compute; reflexivity|]. split; [exact SD|]. split; [exact SP|].
  vm_compute. reflexivity.
Qed.

(** The path to vertex 4 of this graph has 9 vertices; 8 nested calls are not enough. *)
Example C55_errors_case : paths_within 9 sb_paths4 /\ entry sb_paths4 4 [0; 11; 1; 12; 2; 13; 3; 14; 4] /\
  suurballe_shortest_vertex_disjoint_paths 8 sb_G4 0 sb_dist4 sb_paths4 = Throw RecursionErrorPy /\
  (exists T st, suurballe_shortest_vertex_disjoint_paths 9 sb_G4 0 sb_dist4 sb_paths4 = Ok (T, st) /\
    dget (s_td st) 17 = None /\ edge_disjoint_path_cost T st 17 = Throw KeyErrorPy /\
    back_loop 5 T st 1 0 [0] [] = Throw IndexErrorPy) /\
  remove_edge (1, 2) [(0, 1); (1, 2); (1, 2)] = Ok [(0, 1); (1, 2)] /\ remove_edge (1, 2) [(2, 1)] = Throw ValueErrorPy /\
  remove_child 4 [3; 4; 5] = Ok [3; 5] /\ remove_child 4 [] = Throw ValueErrorPy.
Proof.
  split; [apply paths_withinb_ok; vm_compute; reflexivity|]. split; [unfold entry; cbn; tauto|]. split; [vm_compute; reflexivity|].
  split; [eexists; eexists; split; [vm_compute; reflexivity|]; vm_compute; auto|]. vm_compute. auto.
Qed.
