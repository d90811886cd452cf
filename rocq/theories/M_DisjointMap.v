(** * M_DisjointMap: costs and paths of disjoint pairs by vertex of the undirected graph
    (pctsp/preprocessing/preprocessing.py:37-86, pctsp/lab/run_algorithm.py:167-179). *)
From Verif Require Import Base M_Python M_PyCycle M_Suurballe.
Open Scope nat_scope.

(** The functions of tspwplib about split vertices (not in /repo; preprocessing.py:7-9), with the
    biggest vertex id already applied: [is_vertex_split_tail], [get_original_from_split_vertex]
    and [get_original_path_from_split_path]. *)
Record split_names := mkNames {
  is_tail : nat -> bool; original : nat -> nat; original_path : list nat -> list nat }.

(** The loop that both functions share (preprocessing.py:51-66, 80-86): for every vertex of the
    tree that is a tail and labeled, one entry for the original vertex. *)
Definition labeled_map {A} (N : split_names) (T : stree) (s : sst) (value : nat -> res A) : res (list (nat * A)) :=
  foldM (fun m v =>
    if is_tail N v
    then do l <- dfetch (s_lab s) v;
         if (l : bool) then do a <- value v; Ok (dset m (original N v) a) else Ok m
    else Ok m) (t_nodes T) [].

(** vertex_disjoint_cost_map, preprocessing.py:68-86. *)
Definition vertex_disjoint_cost_map (N : split_names) (T : stree) (s : sst) : res (list (nat * Z)) :=
  labeled_map N T s (edge_disjoint_path_cost T s).

(** undirected_vertex_disjoint_paths_map, preprocessing.py:37-66. *)
Definition undirected_vertex_disjoint_paths_map (N : split_names) (T : stree) (s : sst)
    : res (list (nat * (list nat * list nat))) :=
  labeled_map N T s (fun v =>
    do '(p, q) <- extract_suurballe_edge_disjoint_paths T s (t_source T) v;
    Ok (original_path N p, original_path N q)).

(** run_algorithm.py:167-179 (and dataset_app.py:136-145): Suurballe's algorithm on the split
    graph [D] from the head [s] of the root, and the two maps. [dist] and [paths] are what
    networkx computes inside. *)
Definition disjoint_maps (N : split_names) (depth : nat) (D : dgraph) (s : nat) (dist : list (nat * Z))
    (paths : list (nat * list nat)) : res (list (nat * Z) * list (nat * (list nat * list nat))) :=
  do '(T, st) <- suurballe_shortest_vertex_disjoint_paths depth D s dist paths;
  do cost_map <- vertex_disjoint_cost_map N T st;
  do paths_map <- undirected_vertex_disjoint_paths_map N T st;
  Ok (cost_map, paths_map).
