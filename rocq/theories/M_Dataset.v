(** * M_Dataset: the statistics of an instance (pctsp/apps/dataset_app.py:115-178). Logging and the
    numbers called metricness (127-133, 176; tspwplib) are left out. *)
From Verif Require Import Base M_Python M_PyCycle M_PyWrap M_Suurballe M_DisjointMap.
Open Scope nat_scope.

(** [total_prize(prize_map, vertices)] (tspwplib, not in /repo; dataset_app.py:125,151-152,174): the sum
    of the prizes. *)
Definition py_total_prize (prize_map : list (nat * Z)) (vs : list nat) : res Z :=
  foldM (fun acc v => do p <- dfetch prize_map v; Ok (acc + p)%Z) vs 0%Z.

(** [costs[(u, v)]] of a dictionary with pairs as keys (dataset_app.py:122-124; Python). *)
Definition edge_get (costs : list ((nat * nat) * Z)) (u v : nat) : option Z :=
  match find (fun kx => andb (Nat.eqb (fst (fst kx)) u) (Nat.eqb (snd (fst kx)) v)) costs with
  | Some kx => Some (snd kx)
  | None => None
  end.

(** [total_cost(costs, edges)] (tspwplib, not in /repo; dataset_app.py:122,171): the sum of the costs;
    an edge may be a key in either direction. *)
Definition py_total_cost (costs : list ((nat * nat) * Z)) (es : list (nat * nat)) : res Z :=
  foldM (fun acc '(u, v) =>
    match edge_get costs u v with
    | Some x => Ok (acc + x)%Z
    | None => match edge_get costs v u with Some x => Ok (acc + x)%Z | None => Throw KeyErrorPy end
    end) es 0%Z.

(** The loop over the pairs of paths, dataset_app.py:146-158: the largest prize and its vertex. *)
Definition biggest_pair (prize_map : list (nat * Z)) (root_vertex : nat)
    (paths_map : list (nat * (list nat * list nat))) : res (Z * option nat) :=
  foldM (fun '(biggest_prize, biggest_vertex) '(u, (path1, path2)) =>
    do a <- py_total_prize prize_map path1;
    do b <- py_total_prize prize_map path2;
    do pu <- dfetch prize_map u;
    do pr <- dfetch prize_map root_vertex;
    let prize := (a + b - pu - pr)%Z in
    if Z.ltb biggest_prize prize then Ok (prize, Some u) else Ok (biggest_prize, biggest_vertex))
    paths_map (0%Z, None).

(** [float(a) / float(b)] (dataset_app.py:160,177; Python), kept as the fraction. *)
Definition ratio (a b : Z) : res (Z * Z) := if Z.eqb b 0 then Throw ZeroDivisionErrorPy else Ok (a, b).

(** [max(values)] (dataset_app.py:161; Python): ValueError if there are none. *)
Definition py_max (l : list Z) : res Z :=
  match l with [] => Throw ValueErrorPy | x :: r => Ok (fold_left Z.max r x) end.

(** The dictionary that is returned (dataset_app.py:119-178). *)
Record instance_stats := mkInst {
  num_nodes : nat; num_edges : nat; total_cost_stat : Z; total_prize_stat : Z;
  biggest_disjoint_prize : Z; disjoint_prize_ratio : Z * Z; max_disjoint_paths_cost : Z;
  pre_num_nodes : nat; pre_num_edges : nat; pre_total_cost : Z; pre_total_prize : Z; pre_prize_ratio : Z * Z }.

(** get_graph_stats, dataset_app.py:115-178. [names_of]: the functions of tspwplib about split
    vertices for a given biggest vertex id; they compare numbers with it, so [None] is a
    TypeError. The name biggest_vertex is used first for the biggest vertex id (136), then for
    the vertex with the largest prize (147,158), and the latter is passed on (162). *)
Definition get_graph_stats (names_of : nat -> split_names) (depth : nat) (bicomps : nxgraph -> list (list nat))
    (W : pygraph) (D : dgraph) (s : nat) (dist : list (nat * Z)) (paths : list (nat * list nat))
    (root_vertex : nat) : res instance_stats :=
  do cost <- py_total_cost (get_edge_attributes W) (py_edges W);
  do og_prize <- py_total_prize (get_node_attributes W) (nx_nodes (pg_adj W));
  let N := names_of (list_max (nx_nodes (pg_adj W))) in
  do '(T, st) <- suurballe_shortest_vertex_disjoint_paths depth D s dist paths;
  do paths_map <- undirected_vertex_disjoint_paths_map N T st;
  do '(biggest_prize, biggest_vertex) <- biggest_pair (get_node_attributes W) root_vertex paths_map;
  do prize_ratio <- ratio biggest_prize og_prize;
  do cost_map <- match biggest_vertex with
                 | Some u => vertex_disjoint_cost_map (names_of u) T st
                 | None => Throw TypeErrorPy
                 end;
  do max_cost <- py_max (map snd cost_map);
  let W' := mkPy (remove_one_connected_components bicomps (pg_adj W) root_vertex) (pg_cost W) (pg_prize W) in
  do pp_cost <- py_total_cost (get_edge_attributes W') (py_edges W');
  do pp_prize <- py_total_prize (get_node_attributes W') (nx_nodes (pg_adj W'));
  do pp_ratio <- ratio pp_prize og_prize;
  Ok (mkInst (length (pg_adj W)) (length (py_edges W)) cost og_prize biggest_prize prize_ratio max_cost
    (length (pg_adj W')) (length (py_edges W')) pp_cost pp_prize pp_ratio).
