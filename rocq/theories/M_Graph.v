(** * M_Graph: generic graph helpers of /repo/include/pctsp/graph.hh and src/graph.cpp *)
From Verif Require Import Base Graph M_Walk.
Open Scope Z_scope.

(** graph.hh:53-71 [addEdgesToGraph]. *)
Definition add_edges_to_graph (g : graph) (es : list (nat * nat)) : graph :=
  fold_left (fun g e => add_edge g (fst e) (snd e)) es g.

(** src/graph.cpp:6-14 [getEdgeVectorOfGraph]: the edges in order. *)
Definition get_edge_vector_of_graph (g : graph) : list nat := seq 0 (length (ge g)).

(** src/graph.cpp:16-28 [getVertexPairVectorFromEdgeSubset]. *)
Definition get_vertex_pairs (g : graph) (es : list nat) : res (list (nat * nat)) :=
  mapM (endpoints g) es.

(** graph.hh:87-121 [edgesFromVertexPairs]. *)
Definition edges_from_vertex_pairs (g : graph) (ps : list (nat * nat)) : res (list nat) :=
  mapM (fun p => do oe <- edge g (fst p) (snd p);
                 match oe with None => Throw EdgeNotFoundException | Some e => Ok e end) ps.

(** graph.hh:123-145 [getEdgeVariables]: a map lookup that yields NULL for an unknown
    edge; variables are numbers, [None] is NULL. *)
Definition get_edge_variables (m : nat -> option nat) (es : list nat) : res (list nat) :=
  mapM (fun e => match m e with None => Throw VariableIsNullException | Some v => Ok v end) es.

(** Insertion into a [std::set] of vertices (graph.hh:172-188), kept as a strictly increasing list. *)
Fixpoint set_insert (x : nat) (l : list nat) : list nat :=
  match l with
  | [] => [x]
  | y :: t => if Nat.ltb x y then x :: l
              else if Nat.eqb x y then l else y :: set_insert x t
  end.

(** graph.hh:165-191 [getVerticesOfEdges]: the set of end points in increasing order. *)
Definition get_vertices_of_edges (g : graph) (es : list nat) : res (list nat) :=
  foldM (fun s e => do uv <- endpoints g e; Ok (set_insert (snd uv) (set_insert (fst uv) s)))
        es [].

(** graph.hh:193-210 [getSelfLoops]. *)
Definition get_self_loops (g : graph) (vs : list nat) : res (list nat) :=
  mapM (fun v => do oe <- edge g v v;
                 match oe with None => Throw NoSelfLoopFoundException | Some e => Ok e end) vs.

(** graph.hh:214-232 [getEdgesInducedByVertices]: for every pair of positions i < j. *)
Fixpoint get_edges_induced (g : graph) (vs : list nat) : res (list nat) :=
  match vs with
  | [] => Ok []
  | u :: t =>
      do xs <- foldM (fun acc v => do oe <- edge g u v;
                        Ok (match oe with Some e => acc ++ [e] | None => acc end)) t [];
      do ys <- get_edges_induced g t;
      Ok (xs ++ ys)
  end.

(** graph.hh:254-277 [isPrizeFeasible]. *)
Definition is_prize_feasible (p : list Z) (quota : Z) (vs : list nat) : res bool :=
  do z <- total_prize p vs; Ok (quota <=? z).

(** Loop of graph.hh:300-307: [cur] is the distance of [current] from [first];
    reaching [last] jumps to [first + 1]. *)
Fixpoint subpath_loop (tour : list nat) (len cur : nat) : res (list nat) :=
  match len with
  | O => Ok []
  | S len' =>
      let cur := if Nat.eqb cur (length tour) then 1%nat else cur in
      do v <- it_get tour cur;
      do t <- subpath_loop tour len' (S cur);
      Ok (v :: t)
  end.

(** graph.hh:279-309 [getSubpathOfCycle].  The indices are non-negative [int]s in all
    uses; [std::advance] beyond [end()] is UB. *)
Definition get_subpath_of_cycle (tour : list nat) (i j : nat) : res (list nat) :=
  let len0 := (Z.of_nat j - Z.of_nat i + 1) in
  let len := if len0 <=? 0 then Z.of_nat (length tour) - Z.of_nat i + Z.of_nat j else len0 in
  if len <? 0 then Throw LengthError
  else if Nat.ltb (length tour) i then UB IterPastEnd
  else subpath_loop tour (Z.to_nat len) i.

(** graph.hh:318-335 [depthFirstSearch].  The C++ recursion stops because the depth
    limit decreases; [limit] is that number as a natural ([depth_limit > 0] is the
    successor case). *)
Fixpoint depth_first_search (g : graph) (limit : nat) (src : nat)
  (st : list bool * list nat) : res (list bool * list nat) :=
  do m1 <- vset (fst st) src true;
  match limit with
  | O => Ok (m1, snd st)
  | S limit' =>
      do ns <- adjacent g src;
      foldM (fun st v =>
               do mv <- vget (fst st) v;
               if mv : bool then Ok st
               else do p1 <- vset (snd st) v src;
                    depth_first_search g limit' v (fst st, p1))
            ns (m1, snd st)
  end.

(** State of [breadthFirstSearch]: graph.hh:345-350. *)
Record bfs_state := mkBfs {
  b_marked : list bool; b_parent : list nat; b_queue : list nat;
  b_depth : nat; b_this : Z; b_next : Z }.

(** graph.hh:355-362: the loop over the neighbours of [u]. *)
Definition bfs_visit (u : nat) (st : list bool * list nat * list nat * Z) (v : nat)
  : res (list bool * list nat * list nat * Z) :=
  let '(m, p, q, nx) := st in
  do mv <- vget m v;
  if mv : bool then Ok st
  else
    do m' <- vset m v true;
    do p' <- vset p v u;
    do nx' <- chk (nx + 1);
    Ok (m', p', q ++ [v], nx').

(** graph.hh:351-368: the while loop; every vertex is pushed at most once, so
    [fuel = num_vertices + 1] is enough for a graph whose vectors have that size. *)
Fixpoint bfs_loop (fuel : nat) (g : graph) (limit : Z) (s : bfs_state)
  : res (list bool * list nat) :=
  match b_queue s with
  | [] => Ok (b_marked s, b_parent s)
  | u :: q =>
      if Z.of_nat (b_depth s) <? limit then
        match fuel with
        | O => OutOfFuel
        | S fuel' =>
            let this := b_this s - 1 in
            do ns <- adjacent g u;
            do '(m, p, q', nx) <- foldM (bfs_visit u) ns (b_marked s, b_parent s, q, b_next s);
            if this =? 0
            then bfs_loop fuel' g limit (mkBfs m p q' (S (b_depth s)) nx 0)
            else bfs_loop fuel' g limit (mkBfs m p q' (b_depth s) this nx)
        end
      else Ok (b_marked s, b_parent s)
  end.

(** graph.hh:337-369 [breadthFirstSearch].  Returns the updated [marked] and [parent]. *)
Definition breadth_first_search (g : graph) (src : nat) (marked : list bool)
  (parent : list nat) (limit : Z) : res (list bool * list nat) :=
  do m <- vset marked src true;
  do p <- vset parent src src;
  bfs_loop (S (num_vertices g)) g limit (mkBfs m p [src] 0 1 0).

(** graph.hh:371-388: the while loop; [n] is the number of iterations still allowed by
    [i <= parent_lookup.size()]. *)
Fixpoint path_in_tree_loop (n : nat) (parents : list nat) (child parent : nat)
  (path : list nat) : res (list nat) :=
  if Nat.eqb parent child then Ok path
  else match n with
       | O => Ok path
       | S n' =>
           do next <- vget parents parent;
           path_in_tree_loop n' parents parent next (parent :: path)
       end.

(** graph.hh:371-388 [pathInTreeFromParents]; the [source] argument is unused. *)
Definition path_in_tree_from_parents (parents : list nat) (target : nat) : res (list nat) :=
  do p <- vget parents target;
  path_in_tree_loop (S (length parents)) parents target p [target].
