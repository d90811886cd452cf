(** * Properties_Filter: views of a graph show its induced subgraph (C76) *)
From Coq Require Import String Sorting.Sorted.
From Verif Require Import Base Graph M_Graph M_Solution M_Stats M_Messages M_Filter Spec Spec_Filter P_Base P_Filter.
Open Scope nat_scope.

(** The vertices of the view are the marked ones, in order; a mark for each vertex is needed. *)
Theorem C76_vertices : forall g mark, gn g <= List.length mark -> exists l, view_vertices g mark = Ok l /\ StronglySorted lt l /\
  forall v, In v l <-> v < gn g /\ marked mark v.
Proof. exact vertices_ok. Qed.
Print Assumptions C76_vertices.

Theorem C76_short : forall g mark, List.length mark < gn g -> view_vertices g mark = UB VecOOB.
Proof. exact vertices_short. Qed.
Print Assumptions C76_short.

(** The edges of the view are those between marked vertices, in order, though the filter of edges lets one end be unmarked. *)
Theorem C76_edges : forall g mark, graph_ok g -> gn g <= List.length mark -> exists l, view_edges g mark = Ok l /\ StronglySorted lt l /\
  forall e, In e l <-> induced_edge g mark e.
Proof. exact edges_ok. Qed.
Print Assumptions C76_edges.

(** These are the edges that getEdgesInducedByVertices gives for the vertices of the view, and the loops. *)
Theorem C76_induced : forall g mark, graph_ok g -> no_parallel g -> gn g <= List.length mark -> exists vs es es',
  view_vertices g mark = Ok vs /\ view_edges g mark = Ok es /\ get_edges_induced g vs = Ok es' /\ NoDup es' /\
  forall e, In e es' <-> In e es /\ forall v, ~ joins g e v v.
Proof. exact induced_view. Qed.
Print Assumptions C76_induced.

(** The neighbours of a vertex in the view are its marked neighbours, each as often as in the graph. *)
Theorem C76_adjacent : forall g mark u, graph_ok g -> gn g <= List.length mark -> u < gn g -> exists l, view_adjacent g mark u = Ok l /\
  forall v, (marked mark v -> times v l = times v (nbrs g u)) /\ (~ marked mark v -> ~ In v l).
Proof. exact adjacent_ok. Qed.
Print Assumptions C76_adjacent.

(** So for a vertex of the view they are those along the edges of the view. *)
Theorem C76_adjacent_edges : forall g mark u, graph_ok g -> gn g <= List.length mark -> u < gn g -> marked mark u -> exists l es,
  view_adjacent g mark u = Ok l /\ view_edges g mark = Ok es /\ forall v, In v l <-> exists e, In e es /\ joins g e u v.
Proof. exact adjacent_edges. Qed.
Print Assumptions C76_adjacent_edges.

(** [boost::edge] on the view finds an edge if one of the two vertices is marked. *)
Theorem C76_edge : forall g mark u v, graph_ok g -> gn g <= List.length mark -> u < gn g -> exists o, view_edge g mark u v = Ok o /\
  forall e, o = Some e <-> step_edge g u v e /\ (marked mark u \/ marked mark v).
Proof. exact edge_ok. Qed.
Print Assumptions C76_edge.

(** A triangle with a tail and a loop; 0, 1 and 3 are marked. *)
Definition view_case : graph := mkGraph 4 [(0, 1); (1, 2); (2, 0); (2, 3); (0, 3); (3, 3)].
Definition mark_case : list bool := [true; true; false; true].

Example C76_case : graph_ok view_case /\ gn view_case = List.length mark_case /\ marked mark_case 3 /\ ~ marked mark_case 2 /\
  view_vertices view_case mark_case = Ok [0; 1; 3] /\ view_edges view_case mark_case = Ok [0; 4; 5] /\
  view_adjacent view_case mark_case 0 = Ok [1; 3] /\ view_adjacent view_case mark_case 3 = Ok [0; 3; 3] /\
  get_edges_induced view_case [0; 1; 3] = Ok [0; 4] /\ view_edge view_case mark_case 3 0 = Ok (Some 4) /\ view_edge view_case mark_case 1 3 = Ok None.
Proof.
  split; [|repeat split; try (unfold marked; cbn; congruence)].
  intros a b I. cbn in I. repeat destruct I as [I|I]; try (injection I as <- <-; cbn; lia). destruct I.
Qed.

(** One expects [boost::edge] to find edges of the view only. With [||] in the filter of edges (graph.hh:413) it finds the edge to a
    vertex that is not in the view; and a vertex that is not in the view has neighbours there. *)
Theorem C76_edge_refuted : exists g mark u v e vs es, graph_ok g /\ gn g = List.length mark /\
  view_vertices g mark = Ok vs /\ view_edges g mark = Ok es /\ In u vs /\
  view_edge g mark u v = Ok (Some e) /\ ~ In e es /\ ~ In v vs.
Proof.
  exists view_case, mark_case, 1, 2, 1, [0; 1; 3], [0; 4; 5]. split; [apply C76_case|]. repeat split; cbn; intuition discriminate.
Qed.
Print Assumptions C76_edge_refuted.

Theorem C76_hidden_refuted : exists g mark u vs l v, graph_ok g /\ gn g = List.length mark /\
  view_vertices g mark = Ok vs /\ u < gn g /\ ~ In u vs /\ view_adjacent g mark u = Ok l /\ In v l.
Proof.
  exists view_case, mark_case, 2, [0; 1; 3], [1; 0; 3], 0. split; [apply C76_case|]. repeat split; cbn; intuition (discriminate || lia).
Qed.
Print Assumptions C76_hidden_refuted.

(** ** Counting, copying, printing *)

(** The number of edges of the view of a solution: the edges whose variable is positive, loops included. *)
Theorem C76_count : forall g s es, (0 < s_den s)%Z -> NoDup es ->
  (forall e, In e es <-> exists u v, joins g e u v /\ (s_den s < s_num s e * 1000000000)%Z) ->
  num_edges_in_filtered_graph (filter_positive g s) =
    if (Z.of_nat (List.length es) <=? int_max)%Z then Ok (Z.of_nat (List.length es)) else UB IntOverflow.
Proof. exact count_ok. Qed.
Print Assumptions C76_count.

(** The pairs of a graph give the graph back, if its last vertex has an edge. *)
Theorem C76_copy : forall g, graph_ok g -> (forall n, gn g = S n -> exists e v, joins g e n v) -> exists ps,
  get_vertex_pair_vector_from_graph g = Ok ps /\ add_edges_to_graph (mkGraph 0 []) ps = g.
Proof. exact copy_ok. Qed.
Print Assumptions C76_copy.

(** One expects the same of all graphs; vertices without edges at the end are lost. *)
Theorem C76_copy_refuted : exists g ps, graph_ok g /\ get_vertex_pair_vector_from_graph g = Ok ps /\ add_edges_to_graph (mkGraph 0 []) ps <> g.
Proof. exists (mkGraph 3 [(0, 1)]), [(0, 1)]. split; [|split; [reflexivity|discriminate]]. intros a b [I|[]]. injection I as <- <-. cbn. lia. Qed.
Print Assumptions C76_copy_refuted.

(** Both ways of printing print the same lines, one for each edge. *)
Theorem C76_print : forall g ps, get_vertex_pair_vector_from_graph g = Ok ps ->
  print_edges g (get_edge_vector_of_graph g) = Ok (print_pairs ps) /\
  Forall2 (fun p l => l = (dec (Z.of_nat (fst p)) ++ ", " ++ dec (Z.of_nat (snd p)))%string) (ge g) (print_pairs ps).
Proof.
  intros g ps E. destruct (P_Lookup.edge_vector_ok g) as (_ & _ & E'). unfold get_vertex_pair_vector_from_graph in E. rewrite E' in E. injection E as <-.
  split; [apply print_ok|]. unfold print_pairs. clear E'. induction (ge g) as [|p l IH]; cbn [map]; [constructor|]. constructor; [reflexivity|exact IH].
Qed.
Print Assumptions C76_print.

(** The log of a solution has one line for each edge with a positive variable, in order, loops included; an edge without a variable is
    undefined behaviour. *)
Theorem C76_log : forall text g s m, (0 < s_den s)%Z -> (forall e u v, joins g e u v -> m e = Some e) -> exists es lines,
  log_solution_edges text g s m = Ok lines /\ StronglySorted lt es /\
  (forall e, In e es <-> exists u v, joins g e u v /\ (s_den s < s_num s e * 1000000000)%Z) /\
  Forall2 (fun e l => exists u v, nth_error (ge g) e = Some (u, v) /\
    l = ("Edge " ++ dec (Z.of_nat u) ++ "-" ++ dec (Z.of_nat v) ++ " has value " ++ text (s_num s e, s_den s))%string) es lines.
Proof. exact log_ok. Qed.
Print Assumptions C76_log.

Theorem C76_log_null : forall text g s m e u v, joins g e u v -> m e = None -> (forall f, f < e -> m f = Some f) ->
  log_solution_edges text g s m = UB NullDeref.
Proof. exact log_null. Qed.
Print Assumptions C76_log_null.

Definition sol_case : sol := mkSol 2 (fun e => if Nat.eqb e 1 then 0%Z else if Nat.eqb e 5 then 1%Z else 2%Z).
Example C76_print_case : num_edges_in_filtered_graph (filter_positive view_case sol_case) = Ok 5%Z /\
  get_vertex_pair_vector_from_graph view_case = Ok [(0, 1); (1, 2); (2, 0); (2, 3); (0, 3); (3, 3)] /\
  add_edges_to_graph (mkGraph 0 []) [(0, 1); (1, 2); (2, 0); (2, 3); (0, 3); (3, 3)] = view_case /\
  print_edges view_case [4; 0] = Ok ["0, 3"; "0, 1"]%string /\
  log_solution_edges (fun v => if Z.eqb (fst v) 2 then "1.000000" else "0.500000")%string view_case sol_case (fun e => Some e) =
    Ok ["Edge 0-1 has value 1.000000"; "Edge 2-0 has value 1.000000"; "Edge 2-3 has value 1.000000"; "Edge 0-3 has value 1.000000";
        "Edge 3-3 has value 0.500000"]%string /\
  log_solution_edges (fun _ => ""%string) view_case sol_case (fun e => if Nat.eqb e 3 then None else Some e) = UB NullDeref.
Proof. repeat split. Qed.
