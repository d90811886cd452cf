(** * Properties_PyGraph: graphs and maps from Python objects (C78) *)
From Verif Require Import Base Graph M_Graph M_Renaming M_PyGraph Spec Spec_Rename Spec_PyGraph P_PyGraph.
Open Scope nat_scope.

(** The prizes of a dict are at the places of its vertices, the other prizes are as before. *)
Theorem C78_prizes : forall p d, Forall (fun kv => fst kv < length p /\ fits (snd kv)) d ->
  exists q, fill_prizes p d = Ok q /\ assigned p d q.
Proof. intros p d. exact (prizes_ok d p). Qed.
Print Assumptions C78_prizes.

(** The first entry that is not good decides what happens: a prize that fits no int raises an exception, a vertex that the
    graph does not have is undefined behaviour. *)
Theorem C78_prizes_stop : forall p a v z b, Forall (fun kv => fst kv < length p /\ fits (snd kv)) a ->
  (~ fits z -> fill_prizes p (a ++ (v, z) :: b) = Throw TypeErrorPy) /\
  (fits z -> length p <= v -> fill_prizes p (a ++ (v, z) :: b) = UB VecOOB).
Proof. exact prizes_stop. Qed.
Print Assumptions C78_prizes_stop.

(** The costs of a dict are at the places of its edges, whichever way round they are given; of two entries for one edge the
    last counts. *)
Theorem C78_costs : forall g, graph_ok g -> forall d l, cost_places g d l -> Forall (fun kv => fits (snd kv)) d ->
  forall c, length c = length (ge g) -> exists c', fill_costs g c d = Ok c' /\ assigned c l c'.
Proof. exact costs_ok. Qed.
Print Assumptions C78_costs.

(** The first entry that is not good: a cost that fits no int and a pair without an edge raise exceptions, a source that the graph
    does not have is undefined behaviour. *)
Theorem C78_costs_stop : forall g c a l u v z b, graph_ok g -> length c = length (ge g) -> cost_places g a l ->
  Forall (fun kv => fits (snd kv)) a ->
  (~ fits z -> fill_costs g c (a ++ ((u, v), z) :: b) = Throw TypeErrorPy) /\
  (fits z -> u < gn g -> ~ is_edge g u v -> fill_costs g c (a ++ ((u, v), z) :: b) = Throw EdgeNotFoundException) /\
  (fits z -> gn g <= u -> fill_costs g c (a ++ ((u, v), z) :: b) = UB VecOOB).
Proof. exact costs_stop. Qed.
Print Assumptions C78_costs_stop.

(** The graph of a list of edges: the names in the order of first appearance are its vertices, the edges are in order; with its lookup,
    dicts with the names of Python do what dicts with these vertices do, and lists are translated there and back. *)
Theorem C78_graph : forall es, exists labels bm g, graph_from_py_edge_list [] es = (bm, g) /\ first_appearance (ends es) labels /\
  gn g = length labels /\ renamed labels (ends (ge g)) (ends es) /\ length (ge g) = length es /\ graph_ok g /\
  (forall p d d', same_prizes labels d d' -> fill_prizes_lookup p d bm = fill_prizes p d') /\
  (forall c d d', same_costs labels d d' -> fill_costs_lookup g c d bm = fill_costs g c d') /\
  (forall ns vs, renamed labels ns vs -> get_py_vertex_list bm ns = Ok vs /\ get_boost_vertex_list bm vs = Ok ns).
Proof. exact graph_ok_of. Qed.
Print Assumptions C78_graph.

(** Names that no edge has, and numbers that no vertex has, are undefined behaviour wherever they are first met. *)
Theorem C78_unknown : forall es, exists labels bm g, graph_from_py_edge_list [] es = (bm, g) /\ first_appearance (ends es) labels /\
  (forall p a a' q o z b, same_prizes labels a a' -> fill_prizes p a' = Ok q -> fits z -> ~ In o (ends es) ->
     fill_prizes_lookup p (a ++ (o, z) :: b) bm = UB IterPastEnd) /\
  (forall c a a' q o o' z b, same_costs labels a a' -> fill_costs g c a' = Ok q -> fits z -> ~ In o (ends es) \/ ~ In o' (ends es) ->
     fill_costs_lookup g c (a ++ ((o, o'), z) :: b) bm = UB IterPastEnd) /\
  (forall ns vs o rest, renamed labels ns vs -> ~ In o (ends es) -> get_boost_vertex_list bm (vs ++ o :: rest) = UB IterPastEnd) /\
  (forall ns vs n rest, renamed labels ns vs -> length labels <= n -> get_py_vertex_list bm (ns ++ n :: rest) = UB IterPastEnd).
Proof. exact unknown_names. Qed.
Print Assumptions C78_unknown.

(** The bindings of pypctsp.cpp, which took the place of this file, fill the same maps, for all lookups and graphs. *)
Theorem C78_as_bindings : forall bm g,
  (forall d, Forall (fun kv => fits (snd kv)) d -> forall p, fill_prizes_lookup p d bm = fill_vertex_map p d bm) /\
  (forall d, Forall (fun kv => fits (snd kv)) d -> forall c, fill_costs_lookup g c d bm = fill_cost_map g c d bm).
Proof. intros bm g. split; intros d H; [exact (prizes_bindings d bm H)|exact (costs_bindings g d bm H)]. Qed.
Print Assumptions C78_as_bindings.

(** With a lookup that is not empty the counter starts at 0 all the same: two names become one vertex, and an edge a loop. *)
Theorem C78_used_lookup_refuted : exists es es' bm g bm' g', graph_from_py_edge_list [] es = (bm, g) /\
  graph_from_py_edge_list bm es' = (bm', g') /\ es' = [(8, 5)] /\ ge g' = [(0, 0)] /\
  get_boost_vertex_list bm' [8] = UB IterPastEnd.
Proof.
  exists [(5, 6)], [(8, 5)]. do 4 eexists. split; [vm_compute; reflexivity|]. split; [vm_compute; reflexivity|].
  split; [reflexivity|]. split; vm_compute; reflexivity.
Qed.
Print Assumptions C78_used_lookup_refuted.

(** Example: a triangle with names 7, 3, 9; the cost of one edge is given twice, the second time the other way round. *)
Definition tri : list (nat * nat) := [(7, 3); (3, 9); (9, 7)].
Definition tri_costs : list ((nat * nat) * Z) := [((7, 3), 4%Z); ((9, 3), 5%Z); ((3, 7), 6%Z)].
Example C78_case : exists bm g, graph_from_py_edge_list [] tri = (bm, g) /\ ge g = [(0, 1); (1, 2); (2, 0)] /\ gn g = 3 /\
  same_costs [7; 3; 9] tri_costs [((0, 1), 4%Z); ((2, 1), 5%Z); ((1, 0), 6%Z)] /\
  cost_places g [((0, 1), 4%Z); ((2, 1), 5%Z); ((1, 0), 6%Z)] [(0, 4%Z); (1, 5%Z); (0, 6%Z)] /\
  fill_costs_lookup g [1; 1; 1]%Z tri_costs bm = Ok [6; 5; 1]%Z /\
  fill_prizes_lookup [0; 0; 0]%Z [(9, 8%Z); (7, 2%Z)] bm = Ok [2; 0; 8]%Z /\
  get_boost_vertex_list bm [3; 9; 3] = Ok [1; 2; 1] /\ get_py_vertex_list bm [1; 2; 1] = Ok [3; 9; 3] /\
  fill_costs g [1; 1; 1]%Z [((0, 0), 4%Z)] = Throw EdgeNotFoundException /\
  fill_prizes [0; 0]%Z [(0, 2147483648%Z)] = Throw TypeErrorPy.
Proof.
  eexists _, _. split; [vm_compute; reflexivity|]. split; [reflexivity|]. split; [reflexivity|].
  split. { repeat constructor. }
  split.
  { repeat apply Forall2_cons; try apply Forall2_nil; (split; [|reflexivity]); apply P_Check.find_edge_step; reflexivity. }
  repeat split; vm_compute; reflexivity.
Qed.
