(** * M_PyGraph: graphs and maps from Python objects, src/pygraph.cpp *)
From Verif Require Import Base Graph M_Walk M_Graph M_Renaming.
Open Scope nat_scope.

(** [py::extract<int>] of a number (pygraph.cpp:24, 36, 71; [CostNumberType] in line 49 is [int], graph.hh:18): Boost.Python raises an
    exception for a number out of range.  Simplification: that is an OverflowError; the model has one name for all failures
    of [extract]. *)
Definition extract_int (z : Z) : res Z :=
  if andb (Z.leb int_min z) (Z.leb z int_max) then Ok z else Throw TypeErrorPy.

(** pygraph.cpp:7-15 [graphFromPyEdgeList]: the lookup of the caller is extended.  Simplification, here and below: vertices in
    Python are natural numbers in the range of [int]. *)
Definition graph_from_py_edge_list (lookup : bimap) (edge_list : list (nat * nat)) : bimap * graph :=
  let '(lookup, new_edges) := rename_edges lookup edge_list in
  (lookup, add_edges_to_graph (mkGraph 0 []) new_edges).

(** pygraph.cpp:17-28 [fillPrizeMapFromPyDict] with a lookup; a dict is the list of its items. *)
Definition fill_prizes_lookup (p : list Z) (dict : list (nat * Z)) (bm : bimap) : res (list Z) :=
  foldM (fun p kv => do z <- extract_int (snd kv); do v <- get_new_vertex bm (fst kv); vset p v z) dict p.

(** pygraph.cpp:30-39 [fillPrizeMapFromPyDict] without one. *)
Definition fill_prizes (p : list Z) (dict : list (nat * Z)) : res (list Z) :=
  foldM (fun p kv => do z <- extract_int (snd kv); vset p (fst kv) z) dict p.

(** pygraph.cpp:41-61 [fillCostMapFromPyDict] with a lookup. *)
Definition fill_costs_lookup (g : graph) (c : list Z) (dict : list ((nat * nat) * Z)) (bm : bimap) : res (list Z) :=
  foldM (fun c kv =>
           do z <- extract_int (snd kv);
           do s <- get_new_vertex bm (fst (fst kv));
           do t <- get_new_vertex bm (snd (fst kv));
           do oe <- edge g s t;
           match oe with None => Throw EdgeNotFoundException | Some e => vset c e z end) dict c.

(** pygraph.cpp:63-79 [fillCostMapFromPyDict] without one. *)
Definition fill_costs (g : graph) (c : list Z) (dict : list ((nat * nat) * Z)) : res (list Z) :=
  foldM (fun c kv =>
           do z <- extract_int (snd kv);
           do oe <- edge g (fst (fst kv)) (snd (fst kv));
           match oe with None => Throw EdgeNotFoundException | Some e => vset c e z end) dict c.

(** pygraph.cpp:81-89 [getPyVertexList]. *)
Definition get_py_vertex_list (bm : bimap) (vs : list nat) : res (list nat) :=
  foldM (fun l v => do o <- get_old_vertex bm v; Ok (l ++ [o])) vs [].

(** pygraph.cpp:91-98 [getBoostVertexList]. *)
Definition get_boost_vertex_list (bm : bimap) (l : list nat) : res (list nat) :=
  foldM (fun vs o => do v <- get_new_vertex bm o; Ok (vs ++ [v])) l [].
