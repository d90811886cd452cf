(** * M_MaxFlow: max-flow separation, src/subtour_elimination.cpp:308-485 and
    include/pctsp/subtour_elimination.hh:53-131 *)
From Verif Require Import Base Graph M_Graph M_Solution M_ILP M_Subtour M_Renaming.
Open Scope Z_scope.

(** ** directed graphs with capacities *)

(** An edge of the [DirectedCapacityGraph] (subtour_elimination.cpp:319-328): end points,
    capacity and the [edge_reverse] property. *)
Record arc := mkArc { a_src : nat; a_dst : nat; a_cap : Z; a_rev : nat }.

(** [adjacency_list<vecS, vecS, directedS>] (subtour_elimination.cpp:322-328): number of vertices and edges; an edge is named by
    its position in the order of insertion. *)
Record net := mkNet { n_size : nat; n_arcs : list arc }.

(** The numbers of the arcs leaving [u], in order of insertion ([out_edges] with a [vecS]
    edge list; called by [depth_first_visit], subtour_elimination.hh:77-86, 110-119). *)
Definition out_arcs (d : net) (u : nat) : list (nat * arc) :=
  filter (fun ia => Nat.eqb (a_src (snd ia)) u) (combine (seq 0 (length (n_arcs d))) (n_arcs d)).

(** [boost::default_color_type] (subtour_elimination.hh:82, 115): the three values [depth_first_visit] uses. *)
Inductive colour := White | Gray | Black.
(** [operator==] on colours (subtour_elimination.hh:93, 126). *)
Definition colour_eqb (a b : colour) : bool :=
  match a, b with White, White | Gray, Gray | Black, Black => true | _, _ => false end.

(** subtour_elimination.hh:55-64 [positive_edge_weight]. *)
Definition positive_weight (w : list Z) (e : nat) : res bool := do x <- vget w e; Ok (0 <? x).

(** [boost::depth_first_visit] on the filtered graph (subtour_elimination.hh:77-86, 110-119):
    library function, written as the recursion it unrolls.  [fuel] bounds the depth of the
    recursion. *)
Fixpoint dfs_visit (fuel : nat) (d : net) (w : list Z) (u : nat) (col : list colour)
  : res (list colour) :=
  match fuel with
  | O => OutOfFuel
  | S fuel' =>
      do col <- vset col u Gray;
      do col <- foldM (fun col ia =>
                  do keep <- positive_weight w (fst ia);
                  if (keep : bool) then
                    do k <- vget col (a_dst (snd ia));
                    match k with
                    | White => dfs_visit fuel' d w (a_dst (snd ia)) col
                    | _ => Ok col
                    end
                  else Ok col) (out_arcs d u) col;
      vset col u Black
  end.

(** subtour_elimination.hh:82-89 and 115-122: the colour map after the search and the colour
    of the source.  The colour of every vertex is White at first. *)
Definition search_colours (d : net) (src : nat) (w : list Z) : res (list colour * colour) :=
  do col <- dfs_visit (n_size d) d w src (repeat White (n_size d));
  do k <- vget col src;
  Ok (col, k).

(** subtour_elimination.hh:66-98 [getReachableVertices]. *)
Definition get_reachable (d : net) (src : nat) (w : list Z) : res (list nat) :=
  do '(col, k) <- search_colours d src w;
  foldM (fun acc v => do c <- vget col v; Ok (if colour_eqb c k then acc ++ [v] else acc))
        (seq 0 (n_size d)) [].

(** subtour_elimination.hh:100-131 [getUnreachableVertices]. *)
Definition get_unreachable (d : net) (src : nat) (w : list Z) : res (list nat) :=
  do '(col, k) <- search_colours d src w;
  foldM (fun acc v => do c <- vget col v; Ok (if negb (colour_eqb c k) then acc ++ [v] else acc))
        (seq 0 (n_size d)) [].

(** ** the support graph *)

(** subtour_elimination.cpp:353-368: the four arcs of one support edge; [k] arcs are there
    already. *)
Definition four_arcs (k : nat) (uv : nat * nat) (cap : Z) : list arc :=
  [ mkArc (fst uv) (snd uv) cap (k + 2); mkArc (snd uv) (fst uv) cap (k + 3);
    mkArc (snd uv) (fst uv) 0 k; mkArc (fst uv) (snd uv) 0 (k + 1) ].

(** subtour_elimination.cpp:352-369; [add_edge] on a [vecS] graph adds missing vertices. *)
Definition support_net (pairs : list (nat * nat)) (caps : list Z) : res net :=
  foldM (fun d i =>
           do uv <- vget pairs i;
           do cap <- vget caps i;
           Ok (mkNet (Nat.max (n_size d) (S (Nat.max (fst uv) (snd uv))))
                     (n_arcs d ++ four_arcs (length (n_arcs d)) uv cap)))
        (seq 0 (length pairs)) (mkNet 0 []).

(** subtour_elimination.cpp:331-371: the lookup, the network and the new name of the root. *)
Definition maxflow_network (g : graph) (s : sol) (entries : list (nat * nat))
  (m : nat -> option nat) (root : nat) (root_component : list nat) : res (bimap * net * nat) :=
  do es <- get_solution_edges g s entries;
  do caps <- get_capacity_vector g s entries m;
  do pairs <- get_vertex_pairs g es;
  let root_pairs := filter (fun p => andb (memb (fst p) root_component)
                                          (memb (snd p) root_component)) pairs in
  let '(bm, support) := rename_edges [] root_pairs in
  do d <- support_net support caps;
  do sroot <- get_new_vertex bm root;
  Ok (bm, d, sroot).

(** [boost::push_relabel_max_flow] (subtour_elimination.cpp:389): the value of the flow and
    the residual capacities it leaves, for a network, source and sink. *)
Definition flow_lib := net -> nat -> nat -> Z * list Z.

(** State of the loop of subtour_elimination.cpp:383-426: SCIP, [num_conss_added] and
    [added_sec]. *)
Record mf_state := mkMf { mf_sepa : sepa; mf_num : nat; mf_added : list bool }.

(** subtour_elimination.cpp:407-425: one constraint per unreachable vertex. *)
Definition add_secs (lib : scip_lib) (g : graph) (m : nat -> option nat) (root : nat) (bm : bimap)
  (S : list nat) (unreachable : list nat) (st : mf_state) : res mf_state :=
  foldM (fun st u =>
           do t <- get_old_vertex bm u;
           do sp <- add_sec lib g m S root t (mf_sepa st);
           do u' <- get_new_vertex bm t;
           do added <- vset (mf_added st) u' true;
           Ok (mkMf sp (Datatypes.S (mf_num st)) added)) unreachable st.

(** subtour_elimination.cpp:384-426: one target. *)
Definition maxflow_target (lib : scip_lib) (mf : flow_lib) (g : graph) (m : nat -> option nat)
  (root : nat) (bm : bimap) (d : net) (sroot : nat) (st : mf_state) (target : nat) : res mf_state :=
  do done <- vget (mf_added st) target;
  if (done : bool) then Ok st
  else
    let '(flow, residual) := mf d sroot target in
    if flow <? 2 * flow_float_multiplier then
      do unreachable <- get_unreachable d sroot residual;
      do S <- (if Nat.leb 3 (length unreachable) then get_old_vertices bm unreachable
               else do reachable <- get_reachable d sroot residual;
                    get_old_vertices bm reachable);
      add_secs lib g m root bm S unreachable st
    else Ok st.

(** subtour_elimination.cpp:308-428 [PCTSPseparateMaxflowMincut]; [root_component] is the
    set as a list.  The call of [strong_components] (374) has no effect on the rest.  The
    result is SCIP's state and [num_conss_added]. *)
Definition separate_maxflow (lib : scip_lib) (mf : flow_lib) (g : graph) (s : sol)
  (entries : list (nat * nat)) (m : nat -> option nat) (root : nat) (root_component : list nat)
  (st : sepa * nat) : res (sepa * nat) :=
  do '(bm, d, sroot) <- maxflow_network g s entries m root root_component;
  do added <- (if Nat.ltb sroot (n_size d) then vset (repeat false (n_size d)) sroot true
               else Ok (repeat false (n_size d)));
  do st' <- foldM (maxflow_target lib mf g m root bm d sroot) (seq 0 (n_size d))
                  (mkMf (fst st) (snd st) added);
  Ok (mf_sepa st', mf_num st').

(** subtour_elimination.cpp:430-485 [PCTSPseparateSubtour]; the numbers are those passed to
    [incrementNumSecDisjointTour] and [incrementNumSecMaxflowMincut] (0 if not passed). *)
Definition separate_subtour (lib : scip_lib) (mf : flow_lib) (g : graph) (s : sol)
  (entries : list (nat * nat)) (m : nat -> option nat) (root : nat) (disjoint maxflow : bool)
  (st : sepa) : res (sepa * nat * nat) :=
  do '(cvs, rid) <- support_components g s root;
  do '(st, nd) <- (if disjoint then separate_disjoint_tour lib g m root cvs rid (st, O)
                   else Ok (st, O));
  do '(st, nf) <- (if maxflow
                   then do comp <- vget cvs rid;
                        separate_maxflow lib mf g s entries m root comp (st, O)
                   else Ok (st, O));
  Ok (st, nd, nf).
