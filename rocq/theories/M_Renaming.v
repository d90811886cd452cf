(** * M_Renaming: /repo/include/pctsp/renaming.hh and the heuristic bindings of
    /repo/pctsp/pypctsp.cpp:129-312 *)
From Verif Require Import Base Graph M_Walk M_Graph M_Dijkstra M_Extension M_Collapse M_Gain.
Open Scope Z_scope.

(** [boost::bimap<NewVertex, OldVertex>] (renaming.hh:9,13): the pairs (new, old). *)
Definition bimap := list (nat * nat).

(** [vertex_bimap.left.find] (renaming.hh:62). *)
Definition find_left (bm : bimap) (n : nat) : option nat :=
  option_map snd (find (fun p => Nat.eqb (fst p) n) bm).
(** [vertex_bimap.right.find] (renaming.hh:15, 68). *)
Definition find_right (bm : bimap) (o : nat) : option nat :=
  option_map fst (find (fun p => Nat.eqb (snd p) o) bm).

(** [vertex_bimap.insert] (renaming.hh:17): nothing happens if one of the keys is present. *)
Definition bimap_insert (bm : bimap) (n o : nat) : bimap :=
  match find_left bm n, find_right bm o with
  | None, None => bm ++ [(n, o)]
  | _, _ => bm
  end.

(** renaming.hh:7-25 [findOrInsertVertex]: the new bimap, the new counter and the result. *)
Definition find_or_insert (bm : bimap) (old new : nat) : bimap * nat * nat :=
  match find_right bm old with
  | None => (bimap_insert bm new old, S new, new)
  | Some v => (bm, new, v)
  end.

(** renaming.hh:27-37 [renameVertices]. *)
Definition rename_vertices (bm : bimap) (vs : list nat) : bimap :=
  fst (fold_left (fun st v => let '(bm, new, _) := find_or_insert (fst st) v (snd st) in (bm, new))
         vs (bm, O)).

(** Body of the loop of renaming.hh:47-56. *)
Definition rename_step (st : bimap * nat * list (nat * nat)) (uv : nat * nat)
  : bimap * nat * list (nat * nat) :=
  let '(bm, new, out) := st in
  let '(bm1, new1, s) := find_or_insert bm (fst uv) new in
  let '(bm2, new2, t) := find_or_insert bm1 (snd uv) new1 in
  (bm2, new2, out ++ [(s, t)]).

(** renaming.hh:39-58 [renameEdges]. *)
Definition rename_edges (bm : bimap) (es : list (nat * nat)) : bimap * list (nat * nat) :=
  let '(bm', _, out) := fold_left rename_step es (bm, O, []) in (bm', out).

(** renaming.hh:60-64 [getOldVertex]: the end iterator is dereferenced if the vertex is
    unknown. *)
Definition get_old_vertex (bm : bimap) (n : nat) : res nat :=
  match find_left bm n with Some o => Ok o | None => UB IterPastEnd end.
(** renaming.hh:66-70 [getNewVertex]: likewise. *)
Definition get_new_vertex (bm : bimap) (o : nat) : res nat :=
  match find_right bm o with Some n => Ok n | None => UB IterPastEnd end.

(** renaming.hh:72-81 [getOldEdge]. *)
Definition get_old_edge (bm : bimap) (e : nat * nat) : res (nat * nat) :=
  do a <- get_old_vertex bm (fst e); do b <- get_old_vertex bm (snd e); Ok (a, b).
(** renaming.hh:83-92 [getNewEdge]. *)
Definition get_new_edge (bm : bimap) (e : nat * nat) : res (nat * nat) :=
  do a <- get_new_vertex bm (fst e); do b <- get_new_vertex bm (snd e); Ok (a, b).

(** renaming.hh:94-105 [getOldVertices]. *)
Definition get_old_vertices (bm : bimap) (vs : list nat) : res (list nat) :=
  mapM (get_old_vertex bm) vs.
(** renaming.hh:107-118 [getNewVertices]. *)
Definition get_new_vertices (bm : bimap) (vs : list nat) : res (list nat) :=
  mapM (get_new_vertex bm) vs.

(** renaming.hh:120-131 [getOldEdges]. *)
Definition get_old_edges (bm : bimap) (es : list (nat * nat)) : res (list (nat * nat)) :=
  mapM (get_old_edge bm) es.
(** renaming.hh:133-144 [getNewEdges]. *)
Definition get_new_edges (bm : bimap) (es : list (nat * nat)) : res (list (nat * nat)) :=
  mapM (get_new_edge bm) es.

(** renaming.hh:146-162 [fillCostMapFromRenamedMap]; the map is the list of its entries in
    the order of the keys. *)
Definition fill_cost_map (g : graph) (c : list Z) (dict : list ((nat * nat) * Z)) (bm : bimap)
  : res (list Z) :=
  foldM (fun c kv =>
           do s <- get_new_vertex bm (fst (fst kv));
           do t <- get_new_vertex bm (snd (fst kv));
           do oe <- edge g s t;
           match oe with
           | None => Throw EdgeNotFoundException
           | Some e => vset c e (snd kv)
           end) dict c.

(** renaming.hh:164-175 [fillRenamedVertexMap]. *)
Definition fill_vertex_map (p : list Z) (dict : list (nat * Z)) (bm : bimap) : res (list Z) :=
  foldM (fun p kv => do v <- get_new_vertex bm (fst kv); vset p v (snd kv)) dict p.

(** ** bindings *)

(** pypctsp.cpp:142-145 (and the same lines of the other bindings): the lookup and the
    graph. *)
Definition rename_graph (edge_list : list (nat * nat)) : bimap * graph :=
  let '(bm, new_edges) := rename_edges [] edge_list in
  (bm, add_edges_to_graph (mkGraph 0 []) new_edges).

(** pypctsp.cpp:150-154: the cost and prize maps.  The properties of a new graph are
    value-initialised, so costs and prizes without an entry are 0. *)
Definition fill_maps (bm : bimap) (g : graph) (cost_dict : list ((nat * nat) * Z))
  (prize_dict : list (nat * Z)) : res (list Z * list Z) :=
  do c <- fill_cost_map g (repeat 0 (length (ge g))) cost_dict bm;
  do p <- fill_vertex_map (repeat 0 (gn g)) prize_dict bm;
  Ok (c, p).

(** pypctsp.cpp:129-159 [collapseBind]. *)
Definition collapse_bind (tb : tiebreak) (edge_list : list (nat * nat)) (py_tour : list nat)
  (cost_dict : list ((nat * nat) * Z)) (prize_dict : list (nat * Z)) (quota : Z)
  (py_root : nat) (shortest : bool) : res (list nat) :=
  let '(bm, g) := rename_graph edge_list in
  do root <- get_new_vertex bm py_root;
  do tour <- get_new_vertices bm py_tour;
  do cp <- fill_maps bm g cost_dict prize_dict;
  do t <- collapse tb g tour (fst cp) (snd cp) quota root shortest;
  get_old_vertices bm t.

(** pypctsp.cpp:161-191 [pathExtensionBind]. *)
Definition path_extension_bind (edge_list : list (nat * nat)) (py_tour : list nat)
  (cost_dict : list ((nat * nat) * Z)) (prize_dict : list (nat * Z)) (py_root : nat)
  (step depth : Z) : res (list nat) :=
  let '(bm, g) := rename_graph edge_list in
  do root <- get_new_vertex bm py_root;
  do tour <- get_new_vertices bm py_tour;
  do cp <- fill_maps bm g cost_dict prize_dict;
  do t <- path_extension g tour (fst cp) (snd cp) root step depth;
  get_old_vertices bm t.

(** pypctsp.cpp:193-224 [pathExtensionUntilPrizeFeasibleBind]. *)
Definition path_extension_until_bind (edge_list : list (nat * nat)) (py_tour : list nat)
  (cost_dict : list ((nat * nat) * Z)) (prize_dict : list (nat * Z)) (py_root : nat)
  (quota step depth : Z) : res (list nat) :=
  let '(bm, g) := rename_graph edge_list in
  do root <- get_new_vertex bm py_root;
  do tour <- get_new_vertices bm py_tour;
  do cp <- fill_maps bm g cost_dict prize_dict;
  do t <- path_extension_until g tour (fst cp) (snd cp) root quota step depth;
  get_old_vertices bm t.

(** pypctsp.cpp:226-250 [extensionUntilPrizeFeasibleBind]. *)
Definition extension_until_bind (edge_list : list (nat * nat)) (py_tour : list nat)
  (cost_dict : list ((nat * nat) * Z)) (prize_dict : list (nat * Z))
  (quota : Z) : res (list nat) :=
  let '(bm, g) := rename_graph edge_list in
  do tour <- get_new_vertices bm py_tour;
  do cp <- fill_maps bm g cost_dict prize_dict;
  do t <- extension_until_prize_feasible g tour (fst cp) (snd cp) quota;
  get_old_vertices bm t.

(** pypctsp.cpp:252-284 [pathExtensionCollapseBind]. *)
Definition path_extension_collapse_bind (tb : tiebreak) (edge_list : list (nat * nat)) (py_tour : list nat)
  (cost_dict : list ((nat * nat) * Z)) (prize_dict : list (nat * Z)) (py_root : nat)
  (quota : Z) (shortest : bool) (depth step : Z) : res (list nat) :=
  let '(bm, g) := rename_graph edge_list in
  do root <- get_new_vertex bm py_root;
  do tour <- get_new_vertices bm py_tour;
  do cp <- fill_maps bm g cost_dict prize_dict;
  do t <- path_extension_collapse tb g tour (fst cp) (snd cp) quota root shortest depth step;
  get_old_vertices bm t.

(** pypctsp.cpp:286-312 [extensionUnitaryGainBind]. *)
Definition extension_unitary_gain_bind (edge_list : list (nat * nat)) (py_tour : list nat)
  (cost_dict : list ((nat * nat) * Z)) (prize_dict : list (nat * Z))
  : res (list nat) :=
  let '(bm, g) := rename_graph edge_list in
  do tour <- get_new_vertices bm py_tour;
  do cp <- fill_maps bm g cost_dict prize_dict;
  do t <- extension_unitary_gain g tour (fst cp) (snd cp);
  get_old_vertices bm t.
