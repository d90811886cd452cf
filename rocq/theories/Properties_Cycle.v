(** * Properties_Cycle: C16 *)
From Coq Require Import Permutation.
From Verif Require Import Base Graph Spec Spec_Cycle M_Graph M_Solution P_Base P_Check P_Cycle P_GraphCycle.
Open Scope nat_scope.

(** A triangle 0-1-2, a triangle 3-4-5, the connecting edge 2-3, a second edge between 0
    and 1 and a self loop at 6.  (Not a model of anything in /repo.) *)
Definition cyc_g : graph :=
  mkGraph 7 [(0,1);(1,2);(2,0);(3,4);(5,4);(5,3);(2,3);(1,0);(6,6)].

(** ** C16 *)
Theorem C16_is_simple_cycle_exact : forall g es,
  graph_ok g -> no_parallel g -> NoDup es -> Forall (fun e => e < length (ge g)) es ->
  exists b, is_simple_cycle g es = Ok b /\ (b = true <-> cycle_edges g 2 es).
Proof.
  intros g es Hg Hp Hn He.
  destruct (is_simple_cycle_iff g es Hg Hn He) as (b & E & H).
  exists b. split; [exact E|]. rewrite H. split.
  - apply cycle_edges_simple; auto.
  - apply cycle_edges_weaken.
Qed.
Print Assumptions C16_is_simple_cycle_exact.

(** With parallel edges: exact for cycles with at least two vertices. *)
Theorem C16_is_simple_cycle_multigraph : forall g es,
  graph_ok g -> NoDup es -> Forall (fun e => e < length (ge g)) es ->
  exists b, is_simple_cycle g es = Ok b /\ (b = true <-> cycle_edges g 1 es).
Proof. exact is_simple_cycle_iff. Qed.
Print Assumptions C16_is_simple_cycle_multigraph.

Example C16_case :
  graph_ok cyc_g /\ is_simple_cycle cyc_g [1;0;2] = Ok true /\
  closed_tour cyc_g 0 2 [0;1;2;0] /\
  is_simple_cycle cyc_g [0;1;2;3;4;5] = Ok false /\
  is_simple_cycle cyc_g [0;1;2;6] = Ok false /\
  is_simple_cycle cyc_g [0;1] = Ok false /\ is_simple_cycle cyc_g [8] = Ok false.
Proof. check. Qed.

(** The premise on parallel edges is needed: two parallel edges are accepted although there
    is no cycle with three vertices. *)
Theorem C16_parallel_edges_refuted : exists g es,
  graph_ok g /\ NoDup es /\ is_simple_cycle g es = Ok true /\ ~ cycle_edges g 2 es.
Proof.
  exists cyc_g, [0;7]. split; [check1|]. split; [check1|]. split; [check1|].
  intros (r & t & es' & (vs & E & _ & Hl & _) & Htr & Hp).
  apply Permutation_length in Hp. apply trail_length in Htr. rewrite E in Htr.
  cbn [length] in Htr, Hp. rewrite app_length in Htr. cbn [length] in Htr. lia.
Qed.
Print Assumptions C16_parallel_edges_refuted.

(** The sibling isGraphSimpleCycle accepts a single vertex with a self loop. *)
Theorem C16_graph_self_loop_refuted : exists g,
  graph_ok g /\ no_parallel g /\ is_graph_simple_cycle g (gn g) = Ok true /\
  ~ cycle_edges g 1 (seq 0 (length (ge g))).
Proof.
  exists (mkGraph 1 [(0,0)]). split; [check1|]. split.
  { intros e f u v He Hf. apply joins_lt in He. apply joins_lt in Hf.
    cbn [ge length] in He, Hf. lia. }
  split; [check1|].
  intros (r & t & es' & (vs & E & _ & Hl & _) & Htr & Hp).
  apply Permutation_length in Hp. apply trail_length in Htr. rewrite E in Htr.
  cbn [length seq ge] in Htr, Hp. rewrite app_length in Htr. cbn [length] in Htr. lia.
Qed.
Print Assumptions C16_graph_self_loop_refuted.

(** With more than one vertex (and no parallel edges) isGraphSimpleCycle is exact: the edges of
    the graph are one simple cycle through all of its vertices. *)
Theorem C16_graph_simple_cycle_exact : forall g component_len,
  graph_ok g -> no_parallel g -> gn g <> 1 -> (Z.of_nat (gn g) <= int_max)%Z -> gn g <= component_len ->
  exists b, is_graph_simple_cycle g component_len = Ok b /\
    (b = true <-> exists r t es, closed_tour g r 2 t /\ trail g t es /\
       Permutation (seq 0 (length (ge g))) es /\ forall v, v < gn g -> In v t).
Proof. exact graph_simple_cycle_iff. Qed.
Print Assumptions C16_graph_simple_cycle_exact.

Example C16_graph_case :
  is_graph_simple_cycle (mkGraph 4 [(0,2);(1,2);(3,0);(1,3)]) 4 = Ok true /\
  is_graph_simple_cycle (mkGraph 5 [(0,2);(1,2);(3,0);(1,3)]) 5 = Ok false /\
  is_graph_simple_cycle (mkGraph 6 [(0,1);(1,2);(2,0);(3,4);(4,5);(5,3)]) 6 = Ok false /\
  is_graph_simple_cycle (mkGraph 0 []) 0 = Ok false.
Proof. check. Qed.
