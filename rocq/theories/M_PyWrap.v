(** * M_PyWrap: the Python wrappers of the heuristics and their choice by name
    (pctsp/algorithms/path_extension_collapse.py, extension_collapse.py,
    pctsp/lab/run_algorithm.py:56-148). Logging levels are left out. *)
From Verif Require Import Base Graph M_Dijkstra M_Renaming M_Python M_PyCycle.
Open Scope nat_scope.

(** An [nx.Graph] with a cost attribute on some edges and a prize attribute on some vertices
    (networkx, not in /repo; used at path_extension_collapse.py:40-42). [pg_cost] is only asked
    about edges of the graph, in the direction in which [graph.edges()] lists them. *)
Record pygraph := mkPy { pg_adj : nxgraph; pg_cost : nat -> nat -> option Z; pg_prize : nat -> option Z }.

(** [list(graph.edges())] (path_extension_collapse.py:42; networkx): every vertex in turn with
    its neighbours that were not visited before; a self loop is listed once. *)
Fixpoint edges_from (seen : list nat) (g : nxgraph) : list (nat * nat) :=
  match g with
  | [] => []
  | (v, ns) :: r => map (pair v) (filter (fun u => negb (memb u seen)) ns) ++ edges_from (v :: seen) r
  end.
(** [list(graph.edges())] (path_extension_collapse.py:42; networkx). *)
Definition py_edges (W : pygraph) : list (nat * nat) := edges_from [] (pg_adj W).

(** [nx.get_edge_attributes(graph, "cost")] (path_extension_collapse.py:40; networkx). *)
Definition get_edge_attributes (W : pygraph) : list ((nat * nat) * Z) :=
  flat_map (fun e => match pg_cost W (fst e) (snd e) with Some x => [(e, x)] | None => [] end) (py_edges W).

(** [nx.get_node_attributes(graph, "prize")] (path_extension_collapse.py:41; networkx). *)
Definition get_node_attributes (W : pygraph) : list (nat * Z) :=
  flat_map (fun v => match pg_prize W v with Some x => [(v, x)] | None => [] end) (nx_nodes (pg_adj W)).

(** A Python [int] as C++ [int] (pypctsp.cpp:129-312; pybind11 raises TypeError out of range). *)
Definition py_int (z : Z) : res Z :=
  if andb (Z.leb int_min z) (Z.leb z int_max) then Ok z else Throw TypeErrorPy.

(** [std::map::emplace] (pypctsp.cpp:132; pybind11 builds the map entry by entry): ordered by
    key, an entry for a key that is present is ignored. *)
Fixpoint map_insert {K} (lt : K -> K -> bool) (k : K) (x : Z) (m : list (K * Z)) : list (K * Z) :=
  match m with
  | [] => [(k, x)]
  | (k', x') :: r =>
    if lt k k' then (k, x) :: m
    else if lt k' k then (k', x') :: map_insert lt k x r
    else m
  end.

(** A Python dictionary with integer values as [std::map] (pypctsp.cpp:132-133; pybind11). *)
Definition to_map {K} (lt : K -> K -> bool) (d : list (K * Z)) : res (list (K * Z)) :=
  foldM (fun m '(k, x) => do z <- py_int x; Ok (map_insert lt k z m)) d [].

(** The order of [std::pair] (pypctsp.cpp:132). *)
Definition pair_lt (a b : nat * nat) : bool :=
  orb (Nat.ltb (fst a) (fst b)) (andb (Nat.eqb (fst a) (fst b)) (Nat.ltb (snd a) (snd b))).

(** The two dictionaries of every wrapper, converted (path_extension_collapse.py:40-41). *)
Definition py_dicts (W : pygraph) : res (list ((nat * nat) * Z) * list (nat * Z)) :=
  do cd <- to_map pair_lt (get_edge_attributes W);
  do pd <- to_map Nat.ltb (get_node_attributes W);
  Ok (cd, pd).

(** path_collapse, path_extension_collapse.py:21-54. *)
Definition py_path_collapse (tb : tiebreak) (W : pygraph) (tour : list nat) (quota : Z) (root_vertex : nat)
    : res (list nat) :=
  do '(cd, pd) <- py_dicts W; do q <- py_int quota;
  collapse_bind tb (py_edges W) tour cd pd q root_vertex true.

(** path_extension, path_extension_collapse.py:57-90: the depth limit is the first and the step
    size the second of the last two arguments (87-88), which the binding
    (pypctsp.cpp:167-168) declares the other way round. *)
Definition py_path_extension (W : pygraph) (tour : list nat) (root_vertex : nat)
    (path_depth_limit step_size : Z) : res (list nat) :=
  do '(cd, pd) <- py_dicts W; do a <- py_int path_depth_limit; do b <- py_int step_size;
  path_extension_bind (py_edges W) tour cd pd root_vertex a b.

(** path_extension_collapse, path_extension_collapse.py:93-132. *)
Definition py_path_extension_collapse (tb : tiebreak) (W : pygraph) (tour : list nat) (root_vertex : nat)
    (quota : Z) (collapse_shortest_paths : bool) (path_depth_limit step_size : Z) : res (list nat) :=
  do '(cd, pd) <- py_dicts W; do q <- py_int quota;
  do a <- py_int path_depth_limit; do b <- py_int step_size;
  path_extension_collapse_bind tb (py_edges W) tour cd pd root_vertex q collapse_shortest_paths a b.

(** path_extension_until_prize_feasible, path_extension_collapse.py:135-174. *)
Definition py_path_extension_until (W : pygraph) (tour : list nat) (root_vertex : nat) (quota : Z)
    (step_size path_depth_limit : Z) : res (list nat) :=
  do '(cd, pd) <- py_dicts W; do q <- py_int quota;
  do a <- py_int step_size; do b <- py_int path_depth_limit;
  path_extension_until_bind (py_edges W) tour cd pd root_vertex q a b.

(** collapse, extension_collapse.py:28-60. *)
Definition py_collapse (tb : tiebreak) (W : pygraph) (tour : list nat) (quota : Z) (root_vertex : nat)
    : res (list nat) :=
  do '(cd, pd) <- py_dicts W; do q <- py_int quota;
  collapse_bind tb (py_edges W) tour cd pd q root_vertex false.

(** extension_unitary_gain, extension_collapse.py:89-114. *)
Definition py_extension_unitary_gain (W : pygraph) (tour : list nat) : res (list nat) :=
  do '(cd, pd) <- py_dicts W;
  extension_unitary_gain_bind (py_edges W) tour cd pd.

(** extension_unitary_gain_collapse, extension_collapse.py:63-86. *)
Definition py_extension_unitary_gain_collapse (tb : tiebreak) (W : pygraph) (tour : list nat) (quota : Z)
    (root_vertex : nat) : res (list nat) :=
  do extended_tour <- py_extension_unitary_gain W tour;
  py_collapse tb W extended_tour quota root_vertex.

(** extension_unitary_loss, extension_collapse.py:117-149. *)
Definition py_extension_unitary_loss (W : pygraph) (tour : list nat) (root_vertex : nat) : res (list nat) :=
  do '(cd, pd) <- py_dicts W;
  path_extension_bind (py_edges W) tour cd pd root_vertex 1 2.

(** extension_until_prize_feasible, extension_collapse.py:152-178. *)
Definition py_extension_until (W : pygraph) (tour : list nat) (quota : Z) : res (list nat) :=
  do '(cd, pd) <- py_dicts W; do q <- py_int quota;
  extension_until_bind (py_edges W) tour cd pd q.

(** AlgorithmName, vial/model_params.py:10-20. *)
Inductive algorithm_name :=
| DisjointToursRelaxation | Extension | BfsExtensionCollapse | BfsPathExtensionCollapse | SolvePctsp
| SuurballesExtensionCollapse | SuurballesHeuristic | SuurballesPathExtensionCollapse.

(** [edge_list_from_walk(tour)] (tspwplib, not in /repo; run_algorithm.py:98,111,132): the
    consecutive pairs. *)
Fixpoint edge_list_from_walk (w : list nat) : list (nat * nat) :=
  match w with
  | u :: ((v :: _) as r) => (u, v) :: edge_list_from_walk r
  | _ => []
  end.

(** The starting tour, run_algorithm.py:70-91. [set_order]: the order in which Python iterates
    over sets. *)
Definition heuristic_start (set_order : list nat -> list nat) (W : pygraph) (quota : Z) (root_vertex : nat)
    (algorithm : algorithm_name) (cost_map : list (nat * Z)) (paths_map : list (nat * (list nat * list nat)))
    : res (list nat) :=
  let empty := match cost_map, paths_map with _ :: _, _ :: _ => false | _, _ => true end in
  match algorithm with
  | SuurballesHeuristic => if empty then Throw ValueErrorPy else Ok []
  | SuurballesExtensionCollapse | SuurballesPathExtensionCollapse =>
    if empty then Throw ValueErrorPy
    else suurballes_tour_initialization (get_node_attributes W) quota cost_map paths_map
  | BfsExtensionCollapse | BfsPathExtensionCollapse => find_cycle_from_bfs set_order (pg_adj W) root_vertex
  | _ => Ok []
  end.

(** [default if not option else option] (run_algorithm.py:119-122): None and 0 give the default. *)
Definition or_default (o : option Z) (default : Z) : Z :=
  match o with Some z => if Z.eqb z 0 then default else z | None => default end.

(** run_heuristic, run_algorithm.py:56-148, up to the edge list: the tour. The check of line 137
    is only logged and left out. *)
Definition run_heuristic_tour (tb : tiebreak) (set_order : list nat -> list nat) (W : pygraph) (quota : Z)
    (root_vertex : nat) (algorithm : algorithm_name) (cost_map : list (nat * Z))
    (paths_map : list (nat * (list nat * list nat))) (collapse_shortest_paths : option bool)
    (path_depth_limit step_size : option Z) : res (list nat) :=
  do small_tour <- heuristic_start set_order W quota root_vertex algorithm cost_map paths_map;
  match algorithm with
  | SuurballesHeuristic => suurballes_heuristic (get_node_attributes W) quota cost_map paths_map
  | BfsExtensionCollapse | SuurballesExtensionCollapse =>
    (* the returned tour is dropped (104) *)
    do _ <- py_extension_until W small_tour quota;
    py_extension_unitary_gain_collapse tb W small_tour quota root_vertex
  | BfsPathExtensionCollapse | SuurballesPathExtensionCollapse =>
    py_path_extension_collapse tb W small_tour root_vertex quota
      (match collapse_shortest_paths with Some b => b | None => false end)
      (or_default path_depth_limit (Z.of_nat (length (pg_adj W)))) (or_default step_size 10)
  | _ => Throw NotImplementedErrorPy
  end.

(** run_heuristic, run_algorithm.py:56-148. *)
Definition run_heuristic tb set_order W quota root_vertex algorithm cost_map paths_map
    collapse_shortest_paths path_depth_limit step_size : res (list (nat * nat)) :=
  do tour <- run_heuristic_tour tb set_order W quota root_vertex algorithm cost_map paths_map
    collapse_shortest_paths path_depth_limit step_size;
  Ok (edge_list_from_walk tour).

(** The options of a vial that concern heuristics (vial/model_params.py:75-91). *)
Record heuristic_params := mkParams {
  mp_algorithm : algorithm_name; mp_collapse_paths : option bool;
  mp_path_depth_limit : option Z; mp_step_size : option Z }.

(** run_algorithm for a heuristic vial, run_algorithm.py:180-191: the option collapse_paths is
    not passed on. *)
Definition run_heuristic_vial tb set_order W quota root_vertex (mp : heuristic_params) cost_map paths_map
    : res (list (nat * nat)) :=
  run_heuristic tb set_order W quota root_vertex (mp_algorithm mp) cost_map paths_map
    None (mp_path_depth_limit mp) (mp_step_size mp).

(** run_algorithm, the starting heuristic of an exact vial, run_algorithm.py:195-207. *)
Definition run_heuristic_exact tb set_order W quota root_vertex (mp : heuristic_params) cost_map paths_map
    : res (list (nat * nat)) :=
  run_heuristic tb set_order W quota root_vertex (mp_algorithm mp) cost_map paths_map
    (mp_collapse_paths mp) (mp_path_depth_limit mp) (mp_step_size mp).
