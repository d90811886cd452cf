(** * M_Solution: /repo/src/solution.cpp, /repo/src/separation.cpp and the component
    helpers of /repo/include/pctsp/data_structures.hh *)
From Verif Require Import Base Graph M_Graph.
Open Scope Z_scope.

(** A SCIP solution ([SCIP_SOL*]): every variable has the rational value
    [s_num x / s_den] with a common positive denominator.  SCIP values are doubles, i.e.
    rationals; their finitely many denominators are brought to a common one.  Variables are
    numbered by the edge they stand for (algorithms.hh:36-47 creates exactly one variable
    per edge and stores it under that edge). *)
Record sol := mkSol { s_den : Z; s_num : nat -> Z }.

(** [SCIPisZero(scip, value)]: |value| <= 1e-9 (SCIP's default epsilon), for the value
    [num / den]; library function used by solution.cpp:10,30 and separation.cpp:87-91. *)
Definition scip_is_zero (num den : Z) : bool := Z.abs num * 1000000000 <=? den.

(** src/solution.cpp:8-11 [isVarPositive]. *)
Definition is_var_positive (s : sol) (var : nat) : bool :=
  andb (negb (scip_is_zero (s_num s var) (s_den s))) (0 <? s_num s var).

(** [SCIPisIntegral(scip, value)]: the value is within 1e-9 of the integer obtained by
    rounding (EPSISINT: value - floor(value + eps) <= eps); library function used by
    src/solution.cpp:17. *)
Definition scip_is_integral (num den : Z) : bool :=
  let f := (num * 1000000000 + den) / (den * 1000000000) in
  (num - f * den) * 1000000000 <=? den.

(** src/solution.cpp:13-20 [isSolutionIntegral]: all [nvars] variables. *)
Definition is_solution_integral (nvars : nat) (s : sol) : bool :=
  forallb (fun v => scip_is_integral (s_num s v) (s_den s)) (seq 0 nvars).

(** src/solution.cpp:22-40 [getSolutionVertices]; the variable of the self loop is read
    from the map ([operator[]] of an edge without variable gives NULL, whose value is not
    defined: [NullDeref]). *)
Definition get_solution_vertices (g : graph) (s : sol) (m : nat -> option nat) : res (list nat) :=
  foldM (fun acc v =>
           do oe <- edge g v v;
           match oe with
           | None => Throw EdgeNotFoundException
           | Some e =>
               match m e with
               | None => UB NullDeref
               | Some var => Ok (if is_var_positive s var then acc ++ [v] else acc)
               end
           end) (vertices g) [].

(** src/solution.cpp:41-52 [getSolutionEdges].  The loop runs over the
    [std::map<PCTSPedge, SCIP_VAR*>], whose order is the order of the addresses of the edge
    properties, so [entries] (the (edge, variable) pairs of the map) comes in an unspecified
    order.  The flag [add_self_loops] is not used by the code. *)
Definition get_solution_edges (g : graph) (s : sol) (entries : list (nat * nat)) : res (list nat) :=
  foldM (fun acc ev =>
           do uv <- endpoints g (fst ev);
           Ok (if andb (negb (Nat.eqb (fst uv) (snd uv))) (is_var_positive s (snd ev))
               then acc ++ [fst ev] else acc)) entries [].

(** src/solution.cpp:54-69 [getSolutionGraph]: the solution edges are added to the graph
    passed in. *)
Definition get_solution_graph (g sg : graph) (s : sol) (entries : list (nat * nat)) : res graph :=
  do es <- get_solution_edges g s entries;
  foldM (fun sg e => do uv <- endpoints g e;
                     Ok (if Nat.eqb (fst uv) (snd uv) then sg else add_edge sg (fst uv) (snd uv)))
        es sg.

(** include/pctsp/solution.hh:32-64 [PositiveEdgeVarFilter] and
    [filterGraphByPositiveEdgeVars]: the edges whose variable is positive, self loops
    included.  The filtered view keeps all vertices; here it is a new graph whose edges are
    the surviving ones in the same order (edge ids are not used by the callers). *)
Definition filter_positive (g : graph) (s : sol) : graph :=
  mkGraph (gn g)
    (map snd (filter (fun ep => is_var_positive s (fst ep))
                     (combine (seq 0 (length (ge g))) (ge g)))).

(** ** isSimpleCycle *)

(** [std::map<PCTSPvertex, std::list<PCTSPvertex>>] with the empty list for absent keys
    ([operator[]] on an absent key inserts an empty list).  separation.cpp:29. *)
Definition vcount := nat -> list nat.

(** separation.cpp:35-40 and 42-47: append to the list of a key. *)
Definition vc_push (m : vcount) (k x : nat) : vcount :=
  fun v => if Nat.eqb v k then m v ++ [x] else m v.

(** separation.cpp:30-51: the first loop; [None] is the early [return false]. *)
Fixpoint cycle_count (g : graph) (es : list nat) (m : vcount) : res (option vcount) :=
  match es with
  | [] => Ok (Some m)
  | e :: es' =>
      do uv <- endpoints g e;
      let '(u, v) := uv in
      if Nat.eqb u v then Ok None
      else
        let m := vc_push (vc_push m u v) v u in
        if orb (Nat.ltb 2 (length (m u))) (Nat.ltb 2 (length (m v))) then Ok None
        else cycle_count g es' m
  end.

(** separation.cpp:58-71: the while loop; [n] is the number of iterations left before
    [i < edge_vector.size()] fails, the result is the final [i] ([None]: return false). *)
Fixpoint cycle_walk (m : vcount) (source : nat) (n i prev current : nat) : option nat :=
  if Nat.eqb current source then Some i
  else
    match n with
    | O => Some i
    | S n' =>
        match m current with
        | [a; b] => cycle_walk m source n' (S i) current (if Nat.eqb a prev then b else a)
        | _ => None
        end
    end.

(** src/separation.cpp:26-73 [isSimpleCycle]. *)
Definition is_simple_cycle (g : graph) (es : list nat) : res bool :=
  match es with
  | [] => Ok false
  | e0 :: _ =>
      do om <- cycle_count g es (fun _ => []);
      match om with
      | None => Ok false
      | Some m =>
          do uv <- endpoints g e0;
          match cycle_walk m (fst uv) (length es) 0 (fst uv) (snd uv) with
          | None => Ok false
          | Some i => Ok (Nat.eqb i (length es - 1))
          end
      end
  end.

(** src/subtour_elimination.cpp:34-40 [isSolSimpleCycle] (and :170-187 [scip_check], which
    answers SCIP_FEASIBLE exactly when it returns true). *)
Definition is_sol_simple_cycle (g : graph) (s : sol) (entries : list (nat * nat)) : res bool :=
  do es <- get_solution_edges g s entries; is_simple_cycle g es.

(** ** connected components *)

(** [boost::connected_components(g, &component[0])]: library function (separation.cpp:16,
    subtour_elimination.cpp:450, cycle_cover.hh:94).  Modelled by its
    result: vertices are taken in order, a vertex without a component starts the next one,
    which consists of everything reachable from it (searched here with the model of
    [breadthFirstSearch]).  State: the labels so far and the number of components. *)
Definition cc_step (g : graph) (st : list (option nat) * nat) (v : nat)
  : res (list (option nat) * nat) :=
  do l <- vget (fst st) v;
  match l with
  | Some _ => Ok st
  | None =>
      let n := num_vertices g in
      do '(mk, _) <- breadth_first_search g v (repeat false n) (repeat 0%nat n) (Z.of_nat n);
      Ok (map (fun lb => if snd lb : bool then Some (snd st) else fst lb) (combine (fst st) mk),
          S (snd st))
  end.

(** The component of every vertex and their number (separation.cpp:16,
    subtour_elimination.cpp:450, cycle_cover.hh:94); see [cc_step]. *)
Definition connected_components (g : graph) : res (list nat * nat) :=
  do '(ls, n) <- foldM (cc_step g) (vertices g) (repeat None (num_vertices g), O);
  do cs <- mapM (fun l => match l with Some c => Ok c | None => UB Uninit end) ls;
  Ok (cs, n).

(** src/separation.cpp:13-23 [isGraphSimpleCycle]; the component vector is passed in by the
    caller and must have one entry per vertex (else [&component_vector[0]] is written out
    of bounds). *)
Definition is_graph_simple_cycle (g : graph) (component_len : nat) : res bool :=
  if Nat.eqb (num_vertices g) 0 then Ok false
  else if Nat.eqb (length (ge g)) 0 then Ok false
  else if Nat.ltb component_len (num_vertices g) then UB VecOOB
  else
    do '(_, n) <- connected_components g;
    if negb (Nat.eqb n 1) then Ok false
    else Ok (forallb (fun v => Nat.eqb (length (nbrs g v)) 2) (vertices g)).

(** include/pctsp/data_structures.hh:48-73 [getConnectedComponentsVectors], first part
    (58-61): the component sizes. *)
Definition component_sizes (vs : list nat) (n_components : nat) (ids : list nat) : res (list nat) :=
  foldM (fun sz v => do c <- vget ids v; do k <- vget sz c; vset sz c (S k))
        vs (repeat 0%nat n_components).

(** data_structures.hh:66-69: writing the vertices; state: the vectors (unwritten entries
    are 0, the value-initialised [VertexDescriptor]) and [num_vertices_added]. *)
Definition place_vertex (ids : list nat) (st : list (list nat) * list nat) (v : nat)
  : res (list (list nat) * list nat) :=
  do c <- vget ids v;
  do cv <- vget (fst st) c;
  do k <- vget (snd st) c;
  do cv' <- vset cv k v;
  do cvs <- vset (fst st) c cv';
  do ks <- vset (snd st) c (S k);
  Ok (cvs, ks).

(** data_structures.hh:48-73 [getConnectedComponentsVectors]. *)
Definition get_connected_components_vectors (g : graph) (n_components : nat) (ids : list nat)
  : res (list (list nat)) :=
  do sizes <- component_sizes (vertices g) n_components ids;
  do '(cvs, _) <- foldM (place_vertex ids) (vertices g)
                    (map (fun k => repeat 0%nat k) sizes, repeat 0%nat n_components);
  Ok cvs.

(** data_structures.hh:79-103 [getNonSingularConnectedComponentVectors]: ids of the
    components with more than one vertex; then for the i-th of them the code reads
    [component_vectors[i]] (line 97). *)
Definition non_singular_ids (cvs : list (list nat)) : list nat :=
  filter (fun i => match nth_error cvs i with
                   | Some c => Nat.ltb 1 (length c) | None => false end) (seq 0 (length cvs)).

(** data_structures.hh:79-103, second part: lines 94-101. *)
Definition get_non_singular_components (cvs : list (list nat)) : res (list (list nat)) :=
  mapM (fun i => vget cvs i) (seq 0 (length (non_singular_ids cvs))).

(** ** capacities *)

(** include/pctsp/separation.hh:9. *)
Definition flow_float_multiplier : Z := 1000000.

(** src/separation.cpp:85-95: the capacity of one value [num/den] in [0, 2].  The
    multiplication by 1000000 is exact here and truncated; the C++ multiplies in double
    precision before truncating. *)
Definition capacity_of (num den : Z) : Z :=
  if scip_is_zero num den then 0
  else if scip_is_zero (num - den) den then flow_float_multiplier
  else if scip_is_zero (num - 2 * den) den then flow_float_multiplier * 2
  else Z.quot (flow_float_multiplier * num) den.

(** src/separation.cpp:75-98 [getCapacityVectorFromSol]: [edge_variable_map[edge]] of a
    solution edge is its variable. *)
Definition get_capacity_vector (g : graph) (s : sol) (entries : list (nat * nat))
  (m : nat -> option nat) : res (list Z) :=
  do es <- get_solution_edges g s entries;
  mapM (fun e => match m e with
                 | None => UB NullDeref
                 | Some var => Ok (capacity_of (s_num s var) (s_den s))
                 end) es.
