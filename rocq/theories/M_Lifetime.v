(** * M_Lifetime: who owns what: reference counts of the variables and constraints handed to
    SCIP, the objects made with [new], the message handler, the pointers of the problem data
    and the capsule of the Python binding

    SCIP counts the references of variables, constraints and message handlers: an object
    starts with one, [capture] adds one, [release] takes one away and frees the object at
    zero.  Only the counting is modelled here, on the original problem; the copy that
    [SCIPsolve] works on is made and freed by SCIP itself. *)
From Verif Require Import Base Graph M_ILP M_CostCover M_Solve.
Open Scope nat_scope.

(** The memory of SCIP: the number of references of each variable (0: freed), the constraints
    with their number of references and the variables they hold, and the variables and
    constraints of the problem (algorithms.hh:33-49, constraint.hh:34-141). *)
Record world := mkWorld {
  w_vars : list nat; w_conss : list (nat * list nat); w_pvars : list nat; w_pconss : list nat }.

(** SCIP after [SCIPcreateObjProb] (algorithms.cpp:290): an empty problem. *)
Definition empty_world : world := mkWorld [] [] [] [].

(** [SCIPcaptureVar] (SCIP; called by [SCIPaddVar], algorithms.hh:43, and by the linear
    constraints of constraint.hh:44, 93 and 131). *)
Definition capture (cs : list nat) (v : nat) : res (list nat) :=
  do r <- vget cs v;
  if Nat.eqb r 0 then UB UseAfterFree else vset cs v (S r).

(** [SCIPreleaseVar] (SCIP; called at constraint.hh:132 and knapsack.cpp:65). *)
Definition release (cs : list nat) (v : nat) : res (list nat) :=
  do r <- vget cs v;
  if Nat.eqb r 0 then UB UseAfterFree else vset cs v (r - 1).

(** The variables a linear constraint holds: SCIP leaves out the zero coefficients
    ([SCIPcreateConsBasicLinear], constraint.hh:44 and 93; [SCIPaddCoefLinear],
    constraint.hh:131). *)
Definition held_vars (ts : list (nat * Z)) : list nat :=
  map fst (filter (fun t => negb (Z.eqb (snd t) 0)) ts).

(** [SCIPcreateVar] and [SCIPaddVar] (algorithms.hh:39-43, knapsack.cpp:31-34): one reference
    for the caller and one for the problem. *)
Definition new_var (w : world) : res world :=
  let v := length (w_vars w) in
  do cs <- capture (w_vars w ++ [1]) v;
  Ok (mkWorld cs (w_conss w) (w_pvars w ++ [v]) (w_pconss w)).

(** algorithms.hh:33-49 [PCTSPaddEdgeVariables] for a graph with [n] edges; the release at
    46 is a comment. *)
Definition lt_edge_variables (n : nat) (w : world) : res world :=
  foldM (fun w _ => new_var w) (seq 0 n) w.

(** [SCIPcreateConsLinear] and its like: a new constraint with one reference, which captures
    its variables (constraint.hh:44, 93, 124; cost_cover.cpp:26). *)
Definition create_cons (ts : list (nat * Z)) (w : world) : res (world * nat) :=
  do cs <- foldM capture (held_vars ts) (w_vars w);
  Ok (mkWorld cs (w_conss w ++ [(1, held_vars ts)]) (w_pvars w) (w_pconss w),
      length (w_conss w)).

(** [SCIPaddCons] (constraint.hh:46, 95, 135; cost_cover.cpp:28; algorithms.cpp:187, 310): the
    problem captures the constraint. *)
Definition add_cons (k : nat) (w : world) : res world :=
  do '(r, vs) <- vget (w_conss w) k;
  if Nat.eqb r 0 then UB UseAfterFree
  else do ks <- vset (w_conss w) k (S r, vs);
       Ok (mkWorld (w_vars w) ks (w_pvars w) (w_pconss w ++ [k])).

(** [SCIPreleaseCons] (constraint.hh:47, 97, 138; cost_cover.cpp:29; algorithms.cpp:188, 311;
    knapsack.cpp:55): the last reference frees the constraint, which releases its variables. *)
Definition release_cons (k : nat) (w : world) : res world :=
  do '(r, vs) <- vget (w_conss w) k;
  if Nat.eqb r 0 then UB UseAfterFree
  else if Nat.eqb r 1
  then do cs <- foldM release vs (w_vars w);
       do ks <- vset (w_conss w) k (0, []);
       Ok (mkWorld cs ks (w_pvars w) (w_pconss w))
  else do ks <- vset (w_conss w) k (r - 1, vs);
       Ok (mkWorld (w_vars w) ks (w_pvars w) (w_pconss w)).

(** [SCIPaddCoefLinear] (SCIP; called at constraint.hh:131). *)
Definition add_coef (k : nat) (t : nat * Z) (w : world) : res world :=
  if Z.eqb (snd t) 0 then Ok w
  else do '(r, vs) <- vget (w_conss w) k;
       if Nat.eqb r 0 then UB UseAfterFree
       else do cs <- capture (w_vars w) (fst t);
            do ks <- vset (w_conss w) k (r, vs ++ [fst t]);
            Ok (mkWorld cs ks (w_pvars w) (w_pconss w)).

(** [SCIPreleaseVar] on a variable of the problem (constraint.hh:132, knapsack.cpp:65). *)
Definition release_var (v : nat) (w : world) : res world :=
  do cs <- release (w_vars w) v;
  Ok (mkWorld cs (w_conss w) (w_pvars w) (w_pconss w)).

(** Create, add and release a constraint: constraint.hh:34-49 [PCTSPaddRootVertexConstraint],
    93-97 (one vertex of [PCTSPaddDegreeTwoConstraint]), cost_cover.cpp:26-29
    [addCoverInequality], and, without variables, algorithms.cpp:307-311 and 185-188. *)
Definition lt_linear (w : world) (ts : list (nat * Z)) : res world :=
  do '(w, k) <- create_cons ts w;
  do w <- add_cons k w;
  release_cons k w.

(** constraint.hh:108-141 [PCTSPaddPrizeConstraint]: [ts] are the variables [vars[i]] with
    their coefficients; each is added to the constraint and released. *)
Definition lt_prize (w : world) (ts : list (nat * Z)) : res world :=
  do '(w, k) <- create_cons [] w;
  do w <- foldM (fun w t => do w <- add_coef k t w; release_var (fst t) w) ts w;
  do w <- add_cons k w;
  release_cons k w.

(** algorithms.hh:106-140 [PCTSPmodelWithoutSECs] for [n] edges; [rows] are its constraints,
    the prize constraint first. *)
Definition lt_without_secs (n : nat) (rows : list lin) : res world :=
  do w <- lt_edge_variables n empty_world;
  match rows with
  | [] => Ok w  (** unreachable: there is always a prize constraint *)
  | pc :: rows =>
      do w <- lt_prize w (l_terms pc);
      foldM lt_linear (map l_terms rows) w
  end.

(** algorithms.cpp:285-311, the part of [modelPrizeCollectingTSP] that makes variables and
    constraints; the subtour constraint has no variables.  The heuristic solution (314-320)
    holds no reference. *)
Definition lt_model (m : ilp) : res world :=
  do w <- lt_without_secs (length (ge (i_graph m))) (i_cons m);
  lt_linear w [].

(** algorithms.cpp:154-189: everything up to [SCIPsolve]: the model, the cost cover
    inequalities of the heuristic solution and the cycle cover constraint. *)
Definition lt_solve (fl : solve_flags) (m : ilp) (st : bc) : res world :=
  do w <- lt_model m;
  do w <- foldM lt_linear (map l_terms (opt_rows (b_dp st) ++ opt_rows (b_sp st))) w;
  if fl_cycle_cover fl then lt_linear w [] else Ok w.

(** The problem freed by [SCIPfree] or by a new [SCIPcreateObjProb] (algorithms.cpp:290,
    knapsack.cpp:67): its constraints are released, then its variables. *)
Definition free_prob (w : world) : res world :=
  do w <- foldM (fun w k => release_cons k w) (w_pconss w) w;
  do w' <- foldM (fun w v => release_var v w) (w_pvars w) w;
  Ok (mkWorld (w_vars w') (w_conss w') [] []).

(** knapsack.cpp:8-70 [knapsack]: a variable per cost, but [num_variables = weights.size()]
    entries of the variable array are used at 49-51 and 63-66.  The result is the memory
    after [SCIPfree] with the references of the message handler (17-19: created and set, never
    released by the function).  The knapsack constraint holds the variables with positive
    weight. *)
Definition lt_knapsack (costs weights : list Z) : res (world * nat) :=
  do w <- lt_edge_variables (length costs) empty_world;
  do vs <- mapM (vget (w_pvars w)) (seq 0 (length weights));
  do w <- lt_linear w (combine vs (map (Z.max 0) weights));
  do w <- foldM (fun w v => release_var v w) vs w;
  do w <- free_prob w;
  let created := 1 in
  let set := S created in
  Ok (w, set - 1).

(** ** objects made with [new], the message handler and the log file *)

(** The objects that [solvePrizeCollectingTSP] makes (algorithms.cpp:150-234, 288-301). *)
Inductive hobj :=
| OProbData | OSubtourHdlr | ODisjointHdlr | OShortestHdlr | OCycleHdlr | ONodeHdlr | OBoundsHdlr
| OLogFile.

(** Equality of objects (algorithms.cpp:150-301). *)
Definition hobj_eqb (a b : hobj) : bool :=
  match a, b with
  | OProbData, OProbData | OSubtourHdlr, OSubtourHdlr | ODisjointHdlr, ODisjointHdlr
  | OShortestHdlr, OShortestHdlr | OCycleHdlr, OCycleHdlr | ONodeHdlr, ONodeHdlr
  | OBoundsHdlr, OBoundsHdlr | OLogFile, OLogFile => true
  | _, _ => false
  end.

(** What happens to them: [new] or [fopen]; handing over to SCIP with [deleteobject] true;
    and the calls on the message handler (algorithms.cpp:150-151, 234). *)
Inductive hop :=
| New (o : hobj) | Include (o : hobj) | MsgCreate | MsgSet | MsgRelease.

(** The objects in hand, those SCIP owns, and the references of the message handler. *)
Record heap := mkHeap { h_stray : list hobj; h_owned : list hobj; h_msg : nat }.

(** One operation (algorithms.cpp:150-301). *)
Definition hstep (h : heap) (o : hop) : heap :=
  match o with
  | New o => mkHeap (h_stray h ++ [o]) (h_owned h) (h_msg h)
  | Include o => mkHeap (filter (fun x => negb (hobj_eqb x o)) (h_stray h)) (h_owned h ++ [o]) (h_msg h)
  | MsgCreate => mkHeap (h_stray h) (h_owned h) 1
  | MsgSet => mkHeap (h_stray h) (h_owned h) (S (h_msg h))
  | MsgRelease => mkHeap (h_stray h) (h_owned h) (h_msg h - 1)
  end.

(** algorithms.cpp:288-301, in [modelPrizeCollectingTSP]. *)
Definition model_hops : list hop :=
  [New OProbData; Include OProbData; New OSubtourHdlr; Include OSubtourHdlr].

(** algorithms.cpp:148-234 in order; the log file of 226 is not closed. *)
Definition solve_hops (fl : solve_flags) : list hop :=
  [MsgCreate; MsgSet] ++ model_hops
  ++ (if fl_disjoint_paths fl then [New ODisjointHdlr; Include ODisjointHdlr] else [])
  ++ (if fl_shortest_path fl then [New OShortestHdlr; Include OShortestHdlr] else [])
  ++ [New OCycleHdlr] ++ (if fl_cycle_cover fl then [Include OCycleHdlr] else [])
  ++ [New ONodeHdlr; Include ONodeHdlr; New OBoundsHdlr; Include OBoundsHdlr]
  ++ [New OLogFile; MsgRelease].

(** What is left when the operations have been done and SCIP has been freed: [SCIPfree]
    deletes the objects it owns and releases its message handler if one was set
    (the Python model frees SCIP; pypctsp.cpp:61-63). *)
Definition left_over (ops : list hop) : list hobj * nat :=
  let h := fold_left hstep ops (mkHeap [] [] 0) in
  (h_stray h,
   if existsb (fun o => match o with MsgSet => true | _ => false end) ops
   then h_msg h - 1 else h_msg h).

(** ** the pointers of the problem data *)

(** The objects the problem data points to: the graph, the root and the quota of the caller
    (pypctsp.cpp:40, 66, 74), and the map of the edge variables, which is a local of
    [modelPrizeCollectingTSP] (algorithms.cpp:285) or the variable of the calling function that
    receives it (algorithms.cpp:154). *)
Inductive addr := AGraph | ARoot | AQuota | AMapModel | AMapSolve.

(** Equality of addresses (algorithms.cpp:288). *)
Definition addr_eqb (a b : addr) : bool :=
  match a, b with
  | AGraph, AGraph | ARoot, ARoot | AQuota, AQuota | AMapModel, AMapModel
  | AMapSolve, AMapSolve => true
  | _, _ => false
  end.

(** data_structures.hh:8-32 [ProbDataPCTSP]. *)
Record probdata := mkPd { pd_graph : addr; pd_root : addr; pd_map : addr; pd_quota : addr }.

(** Reading through a pointer while the objects [live] exist (data_structures.cpp:3-17 and the
    places that use it). *)
Definition deref (live : list addr) (a : addr) : res unit :=
  if existsb (addr_eqb a) live then Ok tt else UB UseAfterFree.

(** The functions that read the problem data: [isSolSimpleCycle] (subtour_elimination.cpp:34-40),
    [PCTSPseparateSubtour] (441-445), [isCycleCoverViolated] (cycle_cover.cpp:77-84),
    [separateCycleCover] (86-94) and [separateThenAddCostCoverInequalities]
    (cost_cover.cpp:86-90). *)
Inductive reader := RCheckSubtour | RSepaSubtour | RCheckCycle | RSepaCycle | RCostCover.

(** The fields they read (places as for [reader]). *)
Definition reads (pd : probdata) (r : reader) : list addr :=
  match r with
  | RCheckSubtour => [pd_graph pd; pd_map pd]
  | RSepaSubtour => [pd_graph pd; pd_map pd; pd_root pd]
  | RCheckCycle | RSepaCycle => [pd_graph pd; pd_map pd; pd_root pd; pd_quota pd]
  | RCostCover => [pd_graph pd; pd_root pd; pd_map pd]
  end.

(** A sequence of such calls (subtour_elimination.cpp:34-40, 441-445; cycle_cover.cpp:77-94;
    cost_cover.cpp:86-90). *)
Definition run_readers (live : list addr) (pd : probdata) (rs : list reader) : res unit :=
  foldM (fun _ r => foldM (fun _ a => deref live a) (reads pd r) tt) rs tt.

(** algorithms.cpp:285-325: the problem data made by [modelPrizeCollectingTSP].  With [elide]
    the compiler builds the returned map in place, in the variable of the caller (allowed, not
    required, for a returned local); otherwise the local ends with the function. *)
Definition model_probdata (elide : bool) : probdata :=
  mkPd AGraph ARoot (if elide then AMapSolve else AMapModel) AQuota.

(** pypctsp.cpp:34-111 and algorithms.cpp:117-237: the life of the objects in one call of the
    solver.  [during] are the calls between the return of [modelPrizeCollectingTSP] and the end
    of [SCIPsolve]; 214 reads the map in the variable of the caller; [later] are calls made
    by the same model after the binding has returned. *)
Definition pointer_life (elide : bool) (during later : list reader) : res unit :=
  let caller := [AGraph; ARoot; AQuota] in
  let pd := model_probdata elide in
  do _ <- run_readers (AMapSolve :: caller) pd during;
  do _ <- deref (AMapSolve :: caller) AMapSolve;
  run_readers [] pd later.

(** ** the capsule of the Python binding *)

(** Reading an object of Python that has [refs] references left ([PyCapsule_GetPointer],
    pypctsp.cpp:63). *)
Definition capsule_get (refs : nat) : res unit :=
  if Nat.eqb refs 0 then UB UseAfterFree else Ok tt.

(** pypctsp.cpp:62-63: [to_ptr] returns a capsule with one reference, held by the temporary
    [py::object], and [kept] other references; the temporary ends with line 62, before the
    capsule is read at 63. *)
Definition scip_of_model (kept : nat) : res unit :=
  let temporary := 1 in
  let refs := kept + temporary in
  let refs := refs - temporary in
  capsule_get refs.

(** pypctsp.cpp:114-125 [modelFromCpp]: references of the capsule after the function: one from
    [PyCapsule_New], one from [reinterpret_borrow], which the [py::object] gives back, and the
    [kept] ones of [from_ptr]. *)
Definition model_from_cpp_refs (kept : nat) : nat :=
  let refs := 1 in
  let refs := refs + 1 in
  let refs := refs + kept in
  refs - 1.
