(** * M_Filter: views of a graph, and small helpers around them (include/pctsp/graph.hh:73-77, 147-163, 244-252, 391-424;
    src/graph.cpp:41-45; src/solution.cpp:71-87) *)
From Coq Require Import String.
From Verif Require Import Base Graph M_Walk M_Graph M_Solution M_Messages.
Open Scope nat_scope.

(** [BoolVertexFilter::operator()], graph.hh:391-400: [std::vector<bool>] indexed unchecked. *)
Definition bool_vertex_filter (mark : list bool) (u : nat) : res bool := vget mark u.

(** [BoolEdgeFilter::operator()], graph.hh:402-415: the second end is read only if the first is not marked. *)
Definition bool_edge_filter (mark : list bool) (p : nat * nat) : res bool :=
  do a <- vget mark (fst p);
  if a : bool then Ok true else vget mark (snd p).

(** The members of a list that pass a filter; [boost::filter_iterator] calls it once for each (graph.hh:422; Boost). *)
Definition pass {A} (f : A -> res bool) (l : list A) : res (list A) :=
  foldM (fun acc x => do b <- f x; Ok (if b : bool then acc ++ [x] else acc)%list) l [].

(** [boost::vertices] of the view that filterMarkedVertices gives (graph.hh:417-424; boost/graph/filtered_graph.hpp). *)
Definition view_vertices (g : graph) (mark : list bool) : res (list nat) := pass (bool_vertex_filter mark) (vertices g).

(** [boost::edges] of the view (graph.hh:417-424; filtered_graph.hpp, edge_predicate): the filter of edges, then that of vertices for
    the source and the target. Edges are their numbers. *)
Definition view_edges (g : graph) (mark : list bool) : res (list nat) :=
  pass (fun e =>
    do p <- endpoints g e;
    do a <- bool_edge_filter mark p;
    if a : bool then
      do b <- bool_vertex_filter mark (fst p);
      if b : bool then bool_vertex_filter mark (snd p) else Ok false
    else Ok false) (get_edge_vector_of_graph g).

(** [boost::adjacent_vertices(u, view)] (graph.hh:417-424; filtered_graph.hpp, out_edge_predicate): the filter of edges, then that of
    vertices for the target only; whether [u] itself passes is not asked. *)
Definition view_adjacent (g : graph) (mark : list bool) (u : nat) : res (list nat) :=
  do l <- adjacent g u;
  pass (fun v =>
    do a <- bool_edge_filter mark (u, v);
    if a : bool then bool_vertex_filter mark v else Ok false) l.

(** [boost::edge(u, v, view)] (graph.hh:417-424; filtered_graph.hpp): an edge of the graph, and the filter of edges for it; the filter
    of vertices is not asked. *)
Definition view_edge (g : graph) (mark : list bool) (u v : nat) : res (option nat) :=
  do o <- edge g u v;
  match o with
  | None => Ok None
  | Some e => do p <- endpoints g e; do a <- bool_edge_filter mark p; Ok (if a : bool then Some e else None)
  end.

(** [numEdgesInFilteredGraph], graph.hh:244-252, of a view given as a graph (M_Solution.filter_positive). *)
Definition num_edges_in_filtered_graph (f : graph) : res Z :=
  foldM (fun n _ => chk (n + 1)) (ge f) 0%Z.

(** [getVertexPairVectorFromGraph], graph.hh:73-77. *)
Definition get_vertex_pair_vector_from_graph (g : graph) : res (list (nat * nat)) :=
  get_vertex_pairs g (get_edge_vector_of_graph g).

(** [printEdges] for pairs, src/graph.cpp:41-45; the lines without their ends. *)
Definition print_pairs (ps : list (nat * nat)) : list string := map (fun p => vstr (fst p) ++ ", " ++ vstr (snd p))%string ps.

(** [printEdges] for edges, graph.hh:154-161; the lines without their ends. *)
Definition print_edges (g : graph) (es : list nat) : res (list string) :=
  mapM (fun e => do p <- endpoints g e; Ok (vstr (fst p) ++ ", " ++ vstr (snd p))%string) es.

(** [logSolutionEdges], src/solution.cpp:71-87; [m] is the map of the edge variables, in which [operator[]] gives NULL for an unknown
    edge. [text]: [std::to_string] of a value. *)
Definition log_solution_edges (text : Z * Z -> string) (g : graph) (s : sol) (m : nat -> option nat) : res (list string) :=
  foldM (fun acc e =>
    match m e with
    | None => UB NullDeref
    | Some var =>
      if is_var_positive s var then
        do p <- endpoints g e;
        Ok (acc ++ [("Edge " ++ vstr (fst p) ++ "-" ++ vstr (snd p) ++ " has value " ++ text (s_num s var, s_den s))%string])%list
      else Ok acc
    end) (get_edge_vector_of_graph g) [].
