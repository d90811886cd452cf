(** * M_Solve: branch and cut, solvePrizeCollectingTSP of src/algorithms.cpp:117-237 and its
    binding pctsp/pypctsp.cpp:34-111

    SCIP itself is not modelled.  A run of [SCIPsolve] is given by the calls it makes of the
    constraint and event handlers, in order, and by the solutions it has in store at the end
    (best first, as [SCIPgetBestSol] and [SCIPgetNSols] see them). *)
From Verif Require Import Base Graph M_Walk M_Graph M_Dijkstra M_Solution M_ILP M_Subtour M_CycleCover
  M_CostCover M_Renaming M_MaxFlow.
Open Scope Z_scope.

(** The switches of algorithms.cpp:127-134 that decide which handlers are installed and what
    they do. *)
Record solve_flags := mkFlags {
  fl_disjoint_paths : bool; fl_shortest_path : bool; fl_cycle_cover : bool;
  fl_sec_disjoint : bool; fl_sec_maxflow : bool }.

(** What the handlers have done: the two cost cover event handlers if installed
    (algorithms.cpp:161-180), the rows of the subtour handler with the numbers passed to the
    node event handler (subtour_elimination.cpp:469, 482), and the rows and the counter of the
    cycle cover handler. *)
Record bc := mkBc {
  b_dp : option cover_hdlr; b_sp : option cover_hdlr;
  b_sec : list lin; b_nd : nat; b_nf : nat; b_cc : list lin; b_ncc : Z }.

(** The rows of one cost cover handler (algorithms.cpp:161-180). *)
Definition opt_rows (h : option cover_hdlr) : list lin :=
  match h with Some h => ch_rows h | None => [] end.

(** All rows and constraints the handlers added (algorithms.cpp:117-237). *)
Definition bc_rows (st : bc) : list lin :=
  opt_rows (b_dp st) ++ opt_rows (b_sp st) ++ b_sec st ++ b_cc st.

(** algorithms.cpp:160-189: the handlers before [SCIPsolve].  [cost_upper_bound] is computed
    first (162) and again, with the same value, in [init_cost_cover].  [dist] is
    [disjoint_paths_distances].  [includeShortestPathCostCover] reads the weights of the graph,
    which here are the costs (the binding passes the edge_weight map, pypctsp.cpp:77). *)
Definition solve_setup (tb : tiebreak) (fl : solve_flags) (m : ilp) (heur : list nat) (root : nat)
  (dist : list Z) : res bc :=
  let g := i_graph m in
  let c := i_cost m in
  do _ <- total_cost_edges c heur;
  do dp <- (if fl_disjoint_paths fl
            then do h <- init_cost_cover g c (var_map g) root heur dist; Ok (Some h)
            else Ok None);
  do sp <- (if fl_shortest_path fl
            then do ds <- shortest_path_distances tb g c c root;
                 do h <- init_cost_cover g c (var_map g) root heur ds; Ok (Some h)
            else Ok None);
  Ok (mkBc dp sp [] 0 0 [] 0).

(** A call by SCIP: separation of the LP solution [s] by the subtour handler
    (subtour_elimination.cpp:297-301) or the cycle cover handler (cycle_cover.cpp:144-149), and
    the event that a new best solution was found while [SCIPgetUpperbound] is [n/d]
    (cost_cover.cpp:79-84). *)
Inductive callback :=
| SepaSubtour (lib : scip_lib) (s : sol)
| SepaCycleCover (lib : scip_lib) (s : sol)
| BestSolFound (n d : Z).

(** The event at a cost cover handler, if it is installed (cost_cover.cpp:79-84). *)
Definition cover_event (g : graph) (root : nat) (nd : Z * Z) (h : option cover_hdlr)
  : res (option cover_hdlr) :=
  match h with
  | None => Ok None
  | Some h => do h' <- cover_exec g (var_map g) root h nd; Ok (Some h')
  end.

(** One call.  The subtour handler sets its result to SCIP_DIDNOTFIND (subtour_elimination.cpp:298);
    SCIP passes SCIP_DIDNOTRUN to the cycle cover handler.  The numbers for the node event
    handler are added up here (in M_Events they are kept per node). *)
Definition run_callback (fl : solve_flags) (mf : flow_lib) (g : graph) (p : list Z) (quota : Z)
  (root : nat) (entries : list (nat * nat)) (st : bc) (cb : callback) : res bc :=
  match cb with
  | SepaSubtour lib s =>
      do '(sp, nd, nf) <- separate_subtour lib mf g s entries (var_map g) root
                            (fl_sec_disjoint fl) (fl_sec_maxflow fl) (mkSepa (b_sec st) DidNotFind);
      Ok (mkBc (b_dp st) (b_sp st) (sp_rows sp) (b_nd st + nd) (b_nf st + nf) (b_cc st) (b_ncc st))
  | SepaCycleCover lib s =>
      if fl_cycle_cover fl then
        do '(sp, n) <- cycle_cover_sepalp lib g (var_map g) p quota root s
                         (mkSepa (b_cc st) DidNotRun, b_ncc st);
        Ok (mkBc (b_dp st) (b_sp st) (b_sec st) (b_nd st) (b_nf st) (sp_rows sp) n)
      else Ok st
  | BestSolFound n d =>
      do dp <- cover_event g root (n, d) (b_dp st);
      do sp <- cover_event g root (n, d) (b_sp st);
      Ok (mkBc dp sp (b_sec st) (b_nd st) (b_nf st) (b_cc st) (b_ncc st))
  end.

(** algorithms.cpp:154-204: everything before [SCIPsolve]. *)
Definition solve_start (tb : tiebreak) (fl : solve_flags) (g : graph) (heur : list nat)
  (c p : list Z) (quota : Z) (root : nat) (dist : list Z) : res (ilp * bc) :=
  do m <- model_pctsp g heur c p quota root;
  do st <- solve_setup tb fl m heur root dist;
  Ok (m, st).

(** algorithms.cpp:206-236: [SCIPsolve] with the calls [cbs], which leaves the solutions
    [sols]; the end points of the edges of the best one. *)
Definition solve_finish (fl : solve_flags) (mf : flow_lib) (m : ilp) (st : bc) (p : list Z)
  (quota : Z) (root : nat) (entries : list (nat * nat)) (cbs : list callback) (sols : list sol)
  : res (bc * list (nat * nat)) :=
  do st' <- foldM (run_callback fl mf (i_graph m) p quota root entries) cbs st;
  do es <- match sols with
           | [] => Ok []
           | s :: _ => get_solution_edges (i_graph m) s entries
           end;
  do r <- get_vertex_pairs (i_graph m) es;
  Ok (st', r).

(** algorithms.cpp:117-237 [solvePrizeCollectingTSP].  Files, logging, branching rules and the
    node and bounds event handlers do not change the result and are modelled elsewhere. *)
Definition solve (tb : tiebreak) (fl : solve_flags) (mf : flow_lib) (g : graph) (heur : list nat)
  (c p : list Z) (quota : Z) (root : nat) (dist : list Z) (entries : list (nat * nat))
  (cbs : list callback) (sols : list sol) : res (bc * list (nat * nat)) :=
  do '(m, st) <- solve_start tb fl g heur c p quota root dist;
  solve_finish fl mf m st p quota root entries cbs sols.

(** algorithms.cpp:28-46 and 48-68, the basic [solvePrizeCollectingTSP] after [SCIPsolve]:
    [infeasible] tells whether the status is SCIP_STATUS_INFEASIBLE.  When it is not and there
    is no solution, [SCIPgetBestSol] is NULL, for which [SCIPgetSolVal] reads the current LP or
    pseudo solution [current] (library behaviour); [None] if there is none. *)
Definition basic_finish (m : ilp) (infeasible : bool) (entries : list (nat * nat)) (sols : list sol)
  (current : option sol) : res (list (nat * nat)) :=
  if infeasible then Ok []
  else
    do s <- match sols with
            | s :: _ => Ok s
            | [] => match current with Some s => Ok s | None => UB NullDeref end
            end;
    do es <- get_solution_edges (i_graph m) s entries;
    get_vertex_pairs (i_graph m) es.

(** pypctsp.cpp:64-81: renaming and everything else up to [SCIPsolve]; the vector
    [disjoint_paths_costs] starts with zeros. *)
Definition py_solve_start (tb : tiebreak) (fl : solve_flags) (edge_list heur : list (nat * nat))
  (cost_dict : list ((nat * nat) * Z)) (prize_dict : list (nat * Z)) (quota : Z) (root : nat)
  (dist_dict : list (nat * Z)) : res (bimap * ilp * bc * list Z * nat) :=
  let '(bm, g) := rename_graph edge_list in
  do hn <- get_new_edges bm heur;
  do he <- edges_from_vertex_pairs g hn;
  do r <- get_new_vertex bm root;
  do '(c, p) <- fill_maps bm g cost_dict prize_dict;
  do dist <- fill_vertex_map (repeat 0 (num_vertices g)) dist_dict bm;
  do '(m, st) <- solve_start tb fl g he c p quota r dist;
  Ok (bm, m, st, p, r).

(** pypctsp.cpp:34-111 [pySolvePrizeCollectingTSP]. *)
Definition py_solve (tb : tiebreak) (fl : solve_flags) (mf : flow_lib)
  (edge_list heur : list (nat * nat)) (cost_dict : list ((nat * nat) * Z))
  (prize_dict : list (nat * Z)) (quota : Z) (root : nat) (dist_dict : list (nat * Z))
  (entries : list (nat * nat)) (cbs : list callback) (sols : list sol)
  : res (bc * list (nat * nat)) :=
  do '(bm, m, st, p, r) <- py_solve_start tb fl edge_list heur cost_dict prize_dict quota root dist_dict;
  do '(st', es) <- solve_finish fl mf m st p quota r entries cbs sols;
  do out <- get_old_edges bm es;
  Ok (st', out).
