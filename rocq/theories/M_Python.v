(** * M_Python: the Python graph preprocessing and starting-tour functions
    (pctsp/preprocessing/preprocessing.py, pctsp/algorithms/heuristic.py). *)
From Verif Require Import Base.
Open Scope nat_scope.

(** An undirected [nx.Graph] (networkx, not in /repo; used at preprocessing.py:6,
    heuristic.py:6): the dictionary from vertices to their neighbours, in insertion order.
    A vertex with a self loop is its own neighbour. Attributes are kept apart. *)
Definition nxgraph := list (nat * list nat).

(** [graph.nodes()] / iterating the graph (preprocessing.py:120,125,151; networkx). *)
Definition nx_nodes (g : nxgraph) : list nat := map fst g.

(** Dictionary lookup by key; [None] is a KeyError. Python dictionaries are modelled by
    association lists in insertion order (heuristic.py:120,146,154; networkx). *)
Fixpoint dget {A} (d : list (nat * A)) (k : nat) : option A :=
  match d with
  | [] => None
  | (k', a) :: r => if Nat.eqb k k' then Some a else dget r k
  end.

(** [graph.neighbors(v)] (preprocessing.py:100, heuristic.py:234); networkx raises
    NetworkXError for an unknown vertex. *)
Definition nx_neighbors (g : nxgraph) (v : nat) : res (list nat) :=
  match dget g v with Some l => Ok l | None => Throw NotFoundPy end.

(** [graph.subgraph(S)] (preprocessing.py:34,125; networkx): the subgraph induced by the
    vertices in [S]; order kept. *)
Definition nx_subgraph (g : nxgraph) (keep : nat -> bool) : nxgraph :=
  map (fun '(v, l) => (v, filter keep l)) (filter (fun '(v, _) => keep v) g).

(** degree_without_self_loops, preprocessing.py:89-103. *)
Definition degree_without_self_loops (g : nxgraph) (v : nat) : res nat :=
  do ns <- nx_neighbors g v;
  Ok (List.length (filter (fun u => negb (Nat.eqb u v)) ns)).

(** The loop of remove_leaves collecting the leaves, preprocessing.py:118-124. *)
Definition leaf_vertices (g : nxgraph) : res (list nat) :=
  foldM (fun acc v =>
    do d <- degree_without_self_loops g v;
    Ok (if Nat.leb d 1 then acc ++ [v] else acc)) (nx_nodes g) [].

(** remove_leaves, preprocessing.py:106-128. [depth] is how many nested calls the Python
    interpreter still allows (sys.getrecursionlimit() minus the calls already active). *)
Fixpoint remove_leaves (depth : nat) (g : nxgraph) : res nxgraph :=
  match depth with
  | O => Throw RecursionErrorPy
  | S d =>
    do leaves <- leaf_vertices g;
    let sub := nx_subgraph g (fun v => negb (memb v leaves)) in
    match leaves with
    | [] => Ok sub
    | _ => remove_leaves d sub
    end
  end.

(** remove_components_disconnected_from_vertex, preprocessing.py:22-34. [component] stands
    for [nx.node_connected_component] (networkx). *)
Definition remove_components_disconnected_from_vertex
    (component : nxgraph -> nat -> list nat) (g : nxgraph) (v : nat) : res nxgraph :=
  if memb v (nx_nodes g) then Ok (nx_subgraph g (fun u => memb u (component g v)))
  else Throw KeyErrorPy.

(** The vertices kept by remove_one_connected_components, preprocessing.py:144-150. *)
Definition root_component (comps : list (list nat)) (root : nat) : list nat :=
  fold_left (fun acc c =>
    if andb (memb root c) (Nat.leb 3 (List.length c)) then acc ++ c else acc) comps [root].

(** remove_one_connected_components, preprocessing.py:131-156. [bicomps] stands for
    [nx.biconnected_components] (networkx), whose sets are modelled by duplicate-free lists.
    Deleting the other vertices from the copy leaves the induced subgraph. *)
Definition remove_one_connected_components
    (bicomps : nxgraph -> list (list nat)) (g : nxgraph) (root : nat) : nxgraph :=
  nx_subgraph g (fun u => memb u (root_component (bicomps g) root)).

(** tour_from_vertex_disjoint_paths, heuristic.py:17-51. *)
Definition tour_from_vertex_disjoint_paths (paths : list nat * list nat) : res (list nat) :=
  let '(first, second) := paths in
  if Nat.leb (List.length first) 1 then Throw ValueErrorPy else
  if Nat.leb (List.length second) 1 then Throw ValueErrorPy else
  match nth_error first 0, nth_error second 0,
        nth_error first (List.length first - 1), nth_error second (List.length second - 1) with
  | Some a, Some b, Some y, Some z =>
      if negb (Nat.eqb a b) then Throw ValueErrorPy else
      if negb (Nat.eqb y z) then Throw ValueErrorPy else
      Ok (first ++ skipn 1 (rev second))
  | _, _, _, _ => Throw IndexErrorPy
  end.

(** [total_prize_of_tour(prize_map, tour)] (tspwplib, not in /repo; heuristic.py:90,119):
    the sum of the prizes of the vertices of a closed tour, the vertex it closes at counted
    once. *)
Definition total_prize_of_tour (prize_map : list (nat * Z)) (tour : list nat) : res Z :=
  foldM (fun acc v => match dget prize_map v with
                      | Some p => Ok (acc + p)%Z
                      | None => Throw KeyErrorPy
                      end) (removelast tour) 0%Z.

(** [sys.maxsize] on a 64-bit machine (heuristic.py:115). *)
Definition py_maxsize : Z := 9223372036854775807%Z.

(** suurballes_heuristic, heuristic.py:97-128; the state is (least_cost, best_tour). *)
Definition suurballes_heuristic (prize_map : list (nat * Z)) (quota : Z)
    (cost_map : list (nat * Z)) (paths_map : list (nat * (list nat * list nat)))
    : res (list nat) :=
  do st <- foldM (fun '(least, best) '(v, paths) =>
      do tour <- tour_from_vertex_disjoint_paths paths;
      do prize <- total_prize_of_tour prize_map tour;
      match dget cost_map v with
      | None => Throw KeyErrorPy
      | Some cost =>
          if andb (andb (Z.ltb cost least) (Z.leb quota prize))
                  (Nat.eqb (List.length (nodup Nat.eq_dec tour)) (List.length tour - 1))
          then Ok (cost, tour) else Ok (least, best)
      end) paths_map (py_maxsize, []);
  Ok (snd st).

(** suurballes_tour_initialization, heuristic.py:54-94. *)
Definition suurballes_tour_initialization (prize_map : list (nat * Z)) (quota : Z)
    (cost_map : list (nat * Z)) (paths_map : list (nat * (list nat * list nat)))
    : res (list nat) :=
  do tour <- suurballes_heuristic prize_map quota cost_map paths_map;
  match tour with
  | _ :: _ => Ok tour
  | [] =>
      do st <- foldM (fun '(big, best) '(_, paths) =>
          do tour <- tour_from_vertex_disjoint_paths paths;
          do prize <- total_prize_of_tour prize_map tour;
          if Z.ltb big prize then Ok (prize, tour) else Ok (big, best)) paths_map (0%Z, []);
      Ok (snd st)
  end.

(** [l.remove(x)] (heuristic.py:150,156,186,198): drop the first occurrence, ValueError if
    there is none. *)
Fixpoint py_remove (l : list nat) (x : nat) : res (list nat) :=
  match l with
  | [] => Throw ValueErrorPy
  | y :: r => if Nat.eqb x y then Ok r else do r' <- py_remove r x; Ok (y :: r')
  end.

(** [random.choice(l)] (heuristic.py:153,193,199): IndexError on an empty list, otherwise
    the entry at the next position of the random number stream [rnd]. *)
Definition py_choice (rnd : list nat) (l : list nat) : res (nat * list nat) :=
  match l, rnd with
  | [], _ => Throw IndexErrorPy
  | _ :: _, [] => OutOfFuel
  | _ :: _, i :: rnd' =>
      match nth_error l (i mod List.length l) with
      | Some v => Ok (v, rnd')
      | None => Throw IndexErrorPy
      end
  end.

(** The loop of random_tour_complete_graph, heuristic.py:151-156, recursing over the random
    number stream. *)
Fixpoint random_tour_loop (prize_map : list (nat * Z)) (quota prize : Z)
    (tour left rnd : list nat) {struct rnd} : res (list nat) :=
  if andb (Nat.ltb 0 (List.length left))
          (orb (Z.ltb prize quota) (Nat.ltb (List.length tour) 3)) then
    match rnd with
    | [] => OutOfFuel
    | i :: rnd' =>
        do '(v, _) <- py_choice [i] left;
        match dget prize_map v with
        | None => Throw KeyErrorPy
        | Some p =>
            do left' <- py_remove left v;
            random_tour_loop prize_map quota (prize + p)%Z (tour ++ [v]) left' rnd'
        end
    end
  else Ok tour.

(** random_tour_complete_graph, heuristic.py:131-160; the seed determines [rnd]. *)
Definition random_tour_complete_graph (prize_map : list (nat * Z)) (nodes : list nat)
    (root : nat) (quota : Z) (rnd : list nat) : res (list nat) :=
  match dget prize_map root with
  | None => Throw KeyErrorPy
  | Some prize =>
      do left <- py_remove nodes root;
      do tour <- random_tour_loop prize_map quota prize [root] left rnd;
      Ok (tour ++ [root])
  end.

(** The loop of random_tour_from_disjoint_paths_map, heuristic.py:194-199: the test
    [len(vertex_choices) >= 0] is always true. *)
Fixpoint random_pair_loop (paths_map : list (nat * (list nat * list nat)))
    (choices : list nat) (vertex : nat) (keep : bool) (rnd : list nat) {struct rnd}
    : res nat :=
  if keep then
    match dget paths_map vertex with
    | None => Throw KeyErrorPy
    | Some (first, second) =>
        let keep' := Nat.ltb (List.length first + List.length second) 5 in
        do choices' <- py_remove choices vertex;
        match choices', rnd with
        | [], _ => Throw IndexErrorPy
        | _, [] => OutOfFuel
        | _, i :: rnd' =>
            do '(v, _) <- py_choice [i] choices';
            random_pair_loop paths_map choices' v keep' rnd'
        end
    end
  else Ok vertex.

(** random_tour_from_disjoint_paths_map, heuristic.py:163-200. *)
Definition random_tour_from_disjoint_paths_map (paths_map : list (nat * (list nat * list nat)))
    (root : nat) (rnd : list nat) : res (list nat) :=
  let keys := map fst paths_map in
  do choices <- (if memb root keys then py_remove keys root else Ok keys);
  if Nat.eqb (List.length choices) 0 then Throw ValueErrorPy else
  do '(v, rnd') <- py_choice rnd choices;
  do v' <- random_pair_loop paths_map choices v true rnd';
  match dget paths_map v' with
  | None => Throw KeyErrorPy
  | Some paths => tour_from_vertex_disjoint_paths paths
  end.

(** The preprocessing switches of a vial ([Preprocessing], pctsp/vial/preprocessing.py:8-15; read at
    pctsp/lab/run_algorithm.py:289-320). *)
Record preprocessing := mkPre {
  pre_components : bool;
  pre_leaves : bool;
  pre_one_connected : bool;
  pre_shortest_path_cutoff : bool;
  pre_disjoint_path_cutoff : bool
}.

(** run_preprocessing, pctsp/lab/run_algorithm.py:284-321; the log messages are
    left out. *)
Definition run_preprocessing (component : nxgraph -> nat -> list nat)
    (bicomps : nxgraph -> list (list nat)) (depth : nat) (pre : preprocessing)
    (g : nxgraph) (root : nat) : res nxgraph :=
  do g1 <- (if pre_components pre then remove_components_disconnected_from_vertex component g root
            else Ok g);
  do g2 <- (if pre_leaves pre then remove_leaves depth g1 else Ok g1);
  let g3 := if pre_one_connected pre then remove_one_connected_components bicomps g2 root else g2 in
  if pre_shortest_path_cutoff pre then Throw NotImplementedErrorPy else
  if pre_disjoint_path_cutoff pre then Throw NotImplementedErrorPy else Ok g3.
