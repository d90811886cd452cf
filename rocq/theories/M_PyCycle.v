(** * M_PyCycle: the breadth-first cycle search (pctsp/algorithms/heuristic.py:203-263). *)
From Verif Require Import Base M_Python.
Open Scope nat_scope.

(** A directed tree ([nx.DiGraph], heuristic.py:214,255) as its list of (parent, child) edges
    in insertion order. *)
Definition nxtree := list (nat * nat).

(** [tree.successors(v)] (heuristic.py:218,230; networkx). *)
Definition successors (T : nxtree) (v : nat) : list nat :=
  map snd (filter (fun e => Nat.eqb (fst e) v) T).

(** [list(tree.predecessors(v))] (heuristic.py:228,259,261; networkx). *)
Definition predecessors (T : nxtree) (v : nat) : list nat :=
  map fst (filter (fun e => Nat.eqb (snd e) v) T).

(** The loop of [nx.bfs_tree] (networkx, called at heuristic.py:214): a queue of vertices;
    every neighbour not seen before becomes a child of the vertex taken from the queue. *)
Fixpoint bfs_loop (fuel : nat) (g : nxgraph) (finished queue : list nat) (T : nxtree) : res nxtree :=
  match queue with
  | [] => Ok T
  | v :: q =>
    match fuel with
    | O => OutOfFuel
    | S f =>
      do ns <- nx_neighbors g v;
      let news := filter (fun w => negb (memb w (finished ++ queue))) ns in
      bfs_loop f g (finished ++ [v]) (q ++ news) (T ++ map (fun w => (v, w)) news)
    end
  end.

(** [nx.bfs_tree(G, root_vertex)] (heuristic.py:214; networkx). *)
Definition nx_bfs_tree (g : nxgraph) (root : nat) : res nxtree :=
  bfs_loop (S (List.length g)) g [] [root] [].

(** The while loop of path_to_vertex_in_tree, heuristic.py:257-261. *)
Fixpoint path_loop (fuel : nat) (T : nxtree) (current : nat) (acc : list nat) : res (list nat) :=
  match predecessors T current with
  | [p] =>
    match fuel with
    | O => OutOfFuel
    | S f => path_loop f T p (current :: acc)
    end
  | _ => Ok (current :: acc)
  end.

(** path_to_vertex_in_tree, heuristic.py:255-263. *)
Definition path_to_vertex_in_tree (T : nxtree) (target : nat) : res (list nat) :=
  path_loop (List.length T) T target [].

(** The loop over the neighbours, heuristic.py:234-235: the first one with another colour. *)
Fixpoint other_color (colors : list (nat * nat)) (color : nat) (ns : list nat) : res (option nat) :=
  match ns with
  | [] => Ok None
  | w :: r =>
    match dget colors w with
    | None => Throw KeyErrorPy
    | Some c => if Nat.eqb c color then other_color colors color r else Ok (Some w)
    end
  end.

(** The while loop of find_cycle_from_bfs, heuristic.py:224-252. Later entries of the colour
    dictionary are put in front. [set_order] is the order in which Python iterates over the
    set [set(G.neighbors(vertex)) - branch_neighbors]. *)
Fixpoint cycle_loop (set_order : list nat -> list nat) (fuel : nat) (g : nxgraph) (T : nxtree)
    (queue : list nat) (colors : list (nat * nat)) : res (list nat) :=
  match queue with
  | [] => Ok []
  | v :: q =>
    match fuel with
    | O => OutOfFuel
    | S f =>
      match dget colors v, predecessors T v with
      | None, _ => Throw KeyErrorPy
      | Some _, [] => Throw IndexErrorPy
      | Some color, parent :: _ =>
        let kids := successors T v in
        let colors' := map (fun k => (k, color)) kids ++ colors in
        do ns <- nx_neighbors g v;
        let others := filter (fun w => negb (memb w (parent :: kids))) ns in
        do found <- other_color colors' color (set_order others);
        match found with
        | None => cycle_loop set_order f g T (q ++ kids) colors'
        | Some w =>
          do pv <- path_to_vertex_in_tree T v;
          do pw <- path_to_vertex_in_tree T w;
          Ok (pv ++ rev pw)
        end
      end
    end
  end.

(** find_cycle_from_bfs, heuristic.py:203-252. *)
Definition find_cycle_from_bfs (set_order : list nat -> list nat) (g : nxgraph) (root : nat)
    : res (list nat) :=
  do T <- nx_bfs_tree g root;
  let kids := successors T root in
  cycle_loop set_order (List.length g) g T kids (combine kids (seq 0 (List.length kids))).
