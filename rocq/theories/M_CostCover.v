(** * M_CostCover: /repo/include/pctsp/cost_cover.hh and /repo/src/cost_cover.cpp *)
From Verif Require Import Base Graph M_Walk M_Graph M_Dijkstra M_ILP.
Open Scope Z_scope.

(** cost_cover.hh:21-35 [separateCostCoverPaths]: the vertices, in order, whose entry exceeds
    the bound; the vector is read by operator[] without a size check. *)
Definition separate_cost_cover_paths (g : graph) (dist : list Z) (ub : Z) : res (list nat) :=
  foldM (fun acc v => do d <- vget dist v; Ok (if ub <? d then acc ++ [v] else acc))
        (vertices g) [].

(** src/cost_cover.cpp:6-31 [addCoverInequality]: the linear constraint [x(S) <= |S| - 1].
    The constraint name (line 24) has no effect and is left out. *)
Definition cover_inequality (vars : list nat) : lin :=
  mkLin (map (fun x => (x, 1)) vars) None (Some (Z.of_nat (length vars) - 1)).

(** cost_cover.hh:42-62 [addCoverInequalityFromVertices]. *)
Definition cover_inequality_from_vertices (g : graph) (m : nat -> option nat) (vs : list nat)
  : res lin :=
  do loops <- get_self_loops g vs;
  do vars <- get_edge_variables m loops;
  Ok (cover_inequality vars).

(** unsigned int arithmetic (cost_cover.hh:72-73). *)
Definition umod (z : Z) : Z := z mod (2 ^ 32).

(** src/cost_cover.cpp:86-100 [separateThenAddCostCoverInequalities]: the constraints added,
    and the count returned. *)
Definition separate_then_add (g : graph) (m : nat -> option nat) (root : nat) (dist : list Z)
  (ub : Z) : res (list lin * Z) :=
  do vs <- separate_cost_cover_paths g dist ub;
  foldM (fun st v =>
           do row <- cover_inequality_from_vertices g m [root; v];
           Ok (fst st ++ [row], umod (snd st + 1))) vs ([], 0).

(** cost_cover.hh:67-93 [CostCoverEventHandler] made by the constructor at 82-93 (the only one
    used), and the constraints added to the problem so far. *)
Record cover_hdlr := mkCover {
  ch_dist : list Z; ch_added : Z; ch_init : Z; ch_rows : list lin }.

(** cost_cover.hh:82-93; src/cost_cover.cpp:102-112 [includeCostCoverEventHandler]. *)
Definition new_cover_hdlr (dist : list Z) : cover_hdlr := mkCover dist 0 0 [].

(** src/cost_cover.cpp:41-43 [getNumConssAdded]. *)
Definition num_conss_added (h : cover_hdlr) : Z := umod (ch_added h + ch_init h).

(** The conversion of a double to int (src/cost_cover.cpp:80): truncation towards zero,
    undefined if the result does not fit.  The double is the rational [n/d]. *)
Definition cast_int (n d : Z) : res Z :=
  chk (Z.quot n d).

(** src/cost_cover.cpp:79-84 [scip_exec], called when a new best solution is found;
    [n/d] is the value of [SCIPgetUpperbound]. *)
Definition cover_exec (g : graph) (m : nat -> option nat) (root : nat) (h : cover_hdlr)
  (nd : Z * Z) : res cover_hdlr :=
  do ub <- cast_int (fst nd) (snd nd);
  do r <- separate_then_add g m root (ch_dist h) ub;
  Ok (mkCover (ch_dist h) (umod (ch_added h + snd r)) (ch_init h) (ch_rows h ++ fst r)).

(** src/algorithms.cpp:161-180 (same code for the two handlers): the handler is included and,
    if the cost of the heuristic edges is positive, the inequalities for it are added. *)
Definition init_cost_cover (g : graph) (c : list Z) (m : nat -> option nat) (root : nat)
  (heur : list nat) (dist : list Z) : res cover_hdlr :=
  do ub <- total_cost_edges c heur;
  if 0 <? ub then
    do r <- separate_then_add g m root dist ub;
    Ok (mkCover dist 0 (snd r) (fst r))
  else Ok (new_cover_hdlr dist).

(** Boost [dijkstra_shortest_paths] without a visitor, as called at cost_cover.hh:146-152: the
    loop of M_Dijkstra with no marked vertex and a target that is not a vertex.  It reads the
    weights from the edge_weight property of the graph.  Boost combines with
    [closed_plus], which is the addition of M_Dijkstra unless an operand is [INT_MAX]. *)
Definition dijkstra_distances (tb : tiebreak) (g : graph) (w : list Z) (s : nat)
  : res (list Z) :=
  do r <- dijkstra_blacklist tb g w s (num_vertices g) (repeat false (num_vertices g));
  Ok (d_dist (snd r)).

(** cost_cover.hh:134-159 [includeShortestPathCostCover]: the distances doubled (signed int)
    and handed to the event handler.  [w] is the edge_weight property of [g], [cost_map] the
    argument that is not used. *)
Definition shortest_path_distances (tb : tiebreak) (g : graph) (w cost_map : list Z) (root : nat)
  : res (list Z) :=
  do dist <- dijkstra_distances tb g w root;
  mapM (fun d => chk (d * 2)) dist.
