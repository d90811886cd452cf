(** * M_Dijkstra: /repo/include/pctsp/walk.hh:189-268, with the Boost algorithm it calls. *)
From Verif Require Import Base Graph.
Open Scope Z_scope.

(** What one edge contributes to [boost::out_edges(u, g)], as (target, edge id); a self loop is
    listed twice (undirectedS, graph.hh:26).  Called by Boost from walk.hh:254. *)
Definition out_of (u : nat) (ep : nat * (nat * nat)) : list (nat * nat) :=
  (if Nat.eqb (fst (snd ep)) u then [(snd (snd ep), fst ep)] else []) ++
  (if Nat.eqb (snd (snd ep)) u then [(fst (snd ep), fst ep)] else []).

(** [boost::out_edges(u, g)] in insertion order (Boost, called from walk.hh:254). *)
Definition out_edges (g : graph) (u : nat) : list (nat * nat) :=
  flat_map (out_of u) (combine (seq 0 (length (ge g))) (ge g)).

(** [boost::default_color_type] (graph.hh:20, heuristic.hh:706) as used by breadth_first_visit. *)
Inductive color := White | Gray | Black.

(** Contents of the property maps (walk.hh:257-266) and of the priority queue of Boost (the queue as the list of its
    elements; which one is on top is decided by [tiebreak]). *)
Record dstate := mkD { d_col : list color; d_dist : list Z; d_pred : list nat; d_queue : list nat }.

(** Which element the heap yields: a function of the arguments of the call (source, target,
    mark), of the number of pops so far, of the distances and of the queue.  Since a run is
    determined by these, any tie-breaking behaviour of the d-ary heap is such a function (Boost, called from
    walk.hh:254-267). *)
Definition tiebreak := nat -> nat -> list bool -> nat -> list Z -> list nat -> nat.

(** Remove one occurrence: [Q.pop()] (Boost, called from walk.hh:254-267). *)
Fixpoint remove1 (x : nat) (l : list nat) : list nat :=
  match l with
  | [] => []
  | y :: t => if Nat.eqb y x then t else y :: remove1 x t
  end.

(** Boost [relax_target]: [if (d[u] + w < d[v]) { d[v] = d[u] + w; p[v] = u; }]; the sum
    is a signed 32-bit addition ([std::plus<int>], walk.hh:262). *)
Definition relax_target (st : dstate) (u v : nat) (w : Z) : res dstate :=
  do du <- vget (d_dist st) u;
  do dv <- vget (d_dist st) v;
  do s <- chk (du + w);
  if s <? dv then
    do dist <- vset (d_dist st) v s;
    do pred <- vset (d_pred st) v u;
    Ok (mkD (d_col st) dist pred (d_queue st))
  else Ok st.

(** One out-edge of the vertex [u] being examined: Boost [breadth_first_visit] with
    [dijkstra_bfs_visitor] around the [TargetVisitor] of walk.hh:189-232 ([examine_edge] at
    220-225 paints blacklisted vertices black). *)
Definition visit_edge (c : list Z) (mark : list bool) (u : nat) (st : dstate) (ve : nat * nat)
  : res dstate :=
  let '(v, e) := ve in
  do w <- cost_of c e;
  if w <? 0 then Throw NegativeEdge else
  do mv <- vget mark v;
  do col <- (if mv : bool then vset (d_col st) v Black else Ok (d_col st));
  let st1 := mkD col (d_dist st) (d_pred st) (d_queue st) in
  do cv <- vget col v;
  match cv with
  | White =>
      do st2 <- relax_target st1 u v w;
      do col2 <- vset (d_col st2) v Gray;
      Ok (mkD col2 (d_dist st2) (d_pred st2) (d_queue st2 ++ [v]))
  | Gray => relax_target st1 u v w
  | Black => Ok st1
  end.

(** The while loop of [breadth_first_visit].  The result [true] stands for the exception
    TargetVertexFound thrown by [finish_vertex] (walk.hh:228-231), with the vectors (passed
    by reference) as they are at that moment. *)
Fixpoint dijkstra_loop (fuel : nat) (tb : tiebreak) (g : graph) (c : list Z) (s t : nat)
  (mark : list bool) (k : nat) (st : dstate) : res (bool * dstate) :=
  match d_queue st with
  | [] => Ok (false, st)
  | _ =>
      match fuel with
      | O => OutOfFuel
      | S fuel' =>
          let u := tb s t mark k (d_dist st) (d_queue st) in
          let st0 := mkD (d_col st) (d_dist st) (d_pred st) (remove1 u (d_queue st)) in
          do st1 <- foldM (visit_edge c mark u) (out_edges g u) st0;
          do col <- vset (d_col st1) u Black;
          let st2 := mkD col (d_dist st1) (d_pred st1) (d_queue st1) in
          if Nat.eqb u t then Ok (true, st2)
          else dijkstra_loop fuel' tb g c s t mark (S k) st2
      end
  end.

(** walk.hh:235-268 [dijkstraShortestPathBlacklist] on vectors of size num_vertices
    (heuristic.hh:702-705).  Boost initialises distance to [INT_MAX], predecessor to the
    vertex itself, colour to white. *)
Definition dijkstra_blacklist (tb : tiebreak) (g : graph) (c : list Z) (s t : nat)
  (mark : list bool) : res (bool * dstate) :=
  let n := num_vertices g in
  do dist <- vset (repeat int_max n) s 0;
  do col <- vset (repeat White n) s Gray;
  dijkstra_loop n tb g c s t mark 0 (mkD col dist (seq 0 n) [s]).
