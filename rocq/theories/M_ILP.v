(** * M_ILP: the integer program: include/pctsp/constraint.hh, include/pctsp/preprocessing.hh,
    include/pctsp/algorithms.hh and modelPrizeCollectingTSP of src/algorithms.cpp *)
From Verif Require Import Base Graph M_Walk M_Graph M_Solution.
Open Scope Z_scope.

(** A linear constraint or row [lhs <= sum coef * x <= rhs] handed to SCIP
    ([SCIPcreateConsBasicLinear], constraint.hh:44,93; [SCIPcreateConsLinear], constraint.hh:124 and
    cost_cover.cpp:26; [SCIPcreateEmptyRowConshdlr], sciputils.cpp:52);
    a term is (variable, coefficient); [None] is an infinite side.  All coefficients and
    sides in the code are integers. *)
Record lin := mkLin { l_terms : list (nat * Z); l_lhs : option Z; l_rhs : option Z }.

(** ** preprocessing *)

(** preprocessing.hh:13-21 [assignZeroCostToSelfLoops]; [cost_map] is the edge_weight_t
    property of the graph, which has an entry for every edge. *)
Definition assign_zero_cost_to_self_loops (g : graph) (c : list Z) : res (list Z) :=
  foldM (fun c v => do oe <- edge g v v;
                    match oe with None => Ok c | Some e => vset c e 0 end) (vertices g) c.

(** src/preprocessing.cpp:3-7 [addSelfLoopsToGraph]; the new edges get a value-initialised
    (zero) cost property.  The vertex set does not change during the loop. *)
Definition add_self_loops_to_graph (g : graph) (c : list Z) : graph * list Z :=
  fold_left (fun gc v => (add_edge (fst gc) v v, snd gc ++ [0])) (vertices g) (g, c).

(** preprocessing.hh:29-36, the loop of [hasSelfLoopsOnAllVertices]. *)
Fixpoint has_loops_from (g : graph) (vs : list nat) : res bool :=
  match vs with
  | [] => Ok true
  | v :: t => do oe <- edge g v v;
              match oe with None => Ok false | Some _ => has_loops_from g t end
  end.

(** preprocessing.hh:29-36 [hasSelfLoopsOnAllVertices]. *)
Definition has_self_loops_on_all_vertices (g : graph) : res bool :=
  has_loops_from g (vertices g).

(** Entry of a [std::map<PCTSPedge, int>]: [None] is an absent key.  preprocessing.hh:38-56
    [putPrizeOntoEdgeWeights] writes [weight_map[edge(source, target).first]]. *)
Definition put_prize_onto_edge_weights (g : graph) (p : list Z) : res (list (option Z)) :=
  foldM (fun w uv =>
           let '(u, v) := uv in
           do x <- (if Nat.eqb u v then prize_of p u else Ok 0);
           do oe <- edge g u v;
           match oe with
           | None => UB Uninit  (** unreachable: the edge exists *)
           | Some e => vset w e (Some x)
           end) (ge g) (repeat None (length (ge g))).

(** ** the constraints *)

(** algorithms.hh:33-49 [PCTSPaddEdgeVariables]: one binary variable per edge with the cost
    of the edge as objective coefficient; variable and edge share their number.  The result
    is the objective: (variable, cost) in the order of creation. *)
Definition add_edge_variables (g : graph) (c : list Z) : res (list (nat * Z)) :=
  mapM (fun e => do x <- cost_of c e; Ok (e, x)) (seq 0 (length (ge g))).

(** The map built by algorithms.hh:44: every edge of the graph has its variable. *)
Definition var_map (g : graph) (e : nat) : option nat :=
  if Nat.ltb e (length (ge g)) then Some e else None.

(** constraint.hh:19-32 [getVariableNameToWeightMap] and 108-141 [PCTSPaddPrizeConstraint].
    The key of the map is the address of the variable's name, which is different for
    different variables, so the weight of a variable is the weight of its edge, 0 when the
    edge has no entry ([operator[]]).  The unary minus is a 32-bit operation. *)
Definition prize_constraint (g : graph) (w : list (option Z)) (quota : Z) : res lin :=
  do q <- chk (- quota);
  do ts <- mapM (fun e => do o <- vget w e;
                          do x <- chk (- (match o with Some x => x | None => 0 end));
                          Ok (e, x)) (seq 0 (length (ge g)));
  Ok (mkLin ts None (Some q)).

(** constraint.hh:34-49 [PCTSPaddRootVertexConstraint]. *)
Definition root_constraint (root_loop : nat) : lin :=
  mkLin [(root_loop, 1)] (Some 1) (Some 1).

(** constraint.hh:58-99: the degree-two constraint of one vertex.  [num_neighbors] is
    [degree - 1]; the arrays have that many entries.  Entry 0 is the self loop; the loop
    writes the other entries; entries that stay unwritten are uninitialised when the
    constraint is created, a write past the end is out of bounds. *)
Definition degree_constraint (g : graph) (v : nat) : res lin :=
  do oe <- edge g v v;
  match oe with
  | None => Throw EdgeNotFoundException
  | Some l =>
      do ns <- adjacent g v;
      let num_neighbors := (length ns - 1)%nat in
      do ts <- foldM (fun ts u =>
                        do of <- edge g v u;
                        match of with
                        | None => UB Uninit  (** unreachable: u is a neighbour *)
                        | Some f =>
                            if Nat.eqb f l then Ok ts
                            else if Nat.ltb (length ts) num_neighbors then Ok (ts ++ [(f, 1)])
                            else UB VecOOB
                        end) ns [(l, -2)];
      if Nat.ltb (length ts) num_neighbors then UB Uninit
      else Ok (mkLin ts (Some 0) (Some 0))
  end.

(** constraint.hh:51-103 [PCTSPaddDegreeTwoConstraint]. *)
Definition degree_constraints (g : graph) : res (list lin) :=
  mapM (degree_constraint g) (vertices g).

(** algorithms.hh:106-140 [PCTSPmodelWithoutSECs]: objective and constraints in the order in
    which they are added. *)
Definition model_without_secs (g : graph) (c : list Z) (w : list (option Z)) (quota : Z)
  (root : nat) : res (list (nat * Z) * list lin) :=
  do obj <- add_edge_variables g c;
  do pc <- prize_constraint g w quota;
  do oe <- edge g root root;
  match oe with
  | None => Throw EdgeNotFoundException
  | Some l =>
      do ds <- degree_constraints g;
      Ok (obj, pc :: root_constraint l :: ds)
  end.

(** ** heuristic solutions *)

(** src/algorithms.cpp:12-26 [addHeuristicVarsToSolver]: a new solution is zero everywhere
    ([SCIPcreateSol]) and gets value 1 on the given variables. *)
Definition heuristic_sol (vars : list nat) : sol :=
  mkSol 1 (fun x => if memb x vars then 1 else 0).

(** algorithms.hh:57-79 [addHeuristicEdgesToSolver]. *)
Definition add_heuristic_edges (g : graph) (m : nat -> option nat) (es : list nat) : res sol :=
  do vs <- get_vertices_of_edges g es;
  do loops <- get_self_loops g vs;
  do lvars <- get_edge_variables m loops;
  do evars <- get_edge_variables m es;
  Ok (heuristic_sol (evars ++ lvars)).

(** algorithms.hh:81-98 [addHeuristicTourToSolver].  The iterator [first] is taken by
    reference and [getSelfLoops] advances it to [last], so the following
    [getEdgesInWalk(graph, first, last)] gets the empty range and returns no edges.  The
    template is never instantiated in the repository; as written its calls of
    [getEdgeVariables] pass temporaries to non-const references, which a compiler rejects,
    so this is the reading in which those iterators are first bound to variables. *)
Definition add_heuristic_tour (g : graph) (m : nat -> option nat) (tour : list nat) : res sol :=
  do loops <- get_self_loops g tour;
  do es <- get_edges_in_walk g [];
  do lvars <- get_edge_variables m loops;
  do evars <- get_edge_variables m es;
  Ok (heuristic_sol (evars ++ lvars)).

(** ** the whole model *)

(** The state that src/algorithms.cpp:239-325 [modelPrizeCollectingTSP] leaves behind. *)
Record ilp := mkIlp {
  i_graph : graph; i_cost : list Z; i_obj : list (nat * Z); i_cons : list lin;
  i_heur : option sol }.

(** src/algorithms.cpp:239-325 [modelPrizeCollectingTSP] on a Boost graph (plugins,
    parameters and the subtour constraint handler of lines 255-277 and 293-311 change SCIP,
    not the data modelled here). *)
Definition model_pctsp (g : graph) (heur : list nat) (c p : list Z) (quota : Z) (root : nat)
  : res ilp :=
  do all <- has_self_loops_on_all_vertices g;
  do '(g, c) <- (if all : bool then Ok (g, c)
                 else let gc := add_self_loops_to_graph g c in
                      do c' <- assign_zero_cost_to_self_loops (fst gc) (snd gc);
                      Ok (fst gc, c'));
  do w <- put_prize_onto_edge_weights g p;
  do '(obj, rows) <- model_without_secs g c w quota root;
  match heur with
  | [] => Ok (mkIlp g c obj rows None)
  | _ => do h <- add_heuristic_edges g (var_map g) heur;
         Ok (mkIlp g c obj rows (Some h))
  end.

(** src/algorithms.cpp:349-359: the prize and cost dictionaries (in key order, keys
    distinct) are written to the property maps; the cost map of a fresh graph is zero. *)
Definition fill_prizes (g : graph) (prize_dict : list (nat * Z)) : res (list Z) :=
  foldM (fun p vx => vset p (fst vx) (snd vx)) prize_dict (repeat 0 (gn g)).

(** src/algorithms.cpp:355-359. *)
Definition fill_costs (g : graph) (cost_dict : list ((nat * nat) * Z)) : res (list Z) :=
  foldM (fun c px =>
           do oe <- edge g (fst (fst px)) (snd (fst px));
           match oe with
           | None => Throw EdgeNotFoundException
           | Some e => vset c e (snd px)
           end) cost_dict (repeat 0 (length (ge g))).

(** src/algorithms.cpp:327-373 [modelPrizeCollectingTSP] on edge lists and dictionaries, for
    a graph that is empty at the start. *)
Definition model_pctsp_dict (edge_list heur : list (nat * nat))
  (cost_dict : list ((nat * nat) * Z)) (prize_dict : list (nat * Z)) (quota : Z) (root : nat)
  : res ilp :=
  let g := add_edges_to_graph (mkGraph 0 []) edge_list in
  do p <- fill_prizes g prize_dict;
  do c <- fill_costs g cost_dict;
  do hs <- edges_from_vertex_pairs g heur;
  model_pctsp g hs c p quota root.
