(** * Properties C37, C38, C39, C40, C53, C54: Python preprocessing and starting tours *)
From Verif Require Import Base M_Python M_PyCycle Spec_Python P_Python P_PyHeur P_PyRandom P_PyCycle.
From Coq Require Import Permutation.
Open Scope nat_scope.

(** ** C37: leaf removal keeps every cycle *)

(** With room for one nested call per vertex, remove_leaves returns the largest induced
    subgraph in which every vertex has two neighbours other than itself, and it has exactly
    the simple cycles of the input. *)
Theorem C37_remove_leaves depth g : undirected g -> length g < depth ->
  exists h, remove_leaves depth g = Ok h /\ induced_subgraph h g /\
    two_neighbours h (vertex h) /\
    (forall S : nat -> Prop, (forall v, S v -> vertex g v) -> two_neighbours g S ->
       forall v, S v -> vertex h v) /\
    (forall r t, cycle_at (adj g) r t <-> cycle_at (adj h) r t).
Proof. exact (remove_leaves_cycles depth g). Qed.
Print Assumptions C37_remove_leaves.

(** A triangle 0,1,2 with a tail 3,4, a self loop at 4 and an isolated vertex 5. *)
Definition py_G : list (nat * list nat) :=
  [(0, [1; 2; 3]); (1, [0; 2]); (2, [1; 0]); (3, [0; 4]); (4, [3; 4]); (5, [])].
Example C37_example : undirected py_G /\ length py_G < 7 /\
  remove_leaves 7 py_G = Ok [(0, [1; 2]); (1, [0; 2]); (2, [1; 0])].
Proof.
  split; [apply undirectedb_ok; vm_compute; reflexivity|]. split; [cbn; lia|]. vm_compute. reflexivity.
Qed.

(** However large the recursion limit of the interpreter is, there is a graph (a path) on
    which remove_leaves fails with RecursionError. *)
Theorem C37_recursion_limit_refuted : forall depth, exists g, undirected g /\
  remove_leaves depth g = Throw RecursionErrorPy.
Proof.
  intros depth. exists (path_graph (2 * depth)). split; [apply path_graph_undirected|].
  apply (remove_leaves_pathlike depth _ 0 (2 * depth) (path_graph_pathlike _)). apply Nat.le_add_r.
Qed.
Print Assumptions C37_recursion_limit_refuted.

(** ** C53: the other preprocessing steps keep every cycle through the root *)

(** The component restriction keeps exactly the vertices connected to the root. *)
Theorem C53_components component g r : undirected g -> vertex g r ->
  component_of g r (component g r) ->
  exists h, remove_components_disconnected_from_vertex component g r = Ok h /\ induced_subgraph h g /\
    (forall v, vertex h v <-> reach g r v) /\
    (forall t, cycle_at (adj g) r t <-> cycle_at (adj h) r t).
Proof. exact (components_ok component g r). Qed.
Print Assumptions C53_components.

(** The block restriction keeps exactly the root and the vertices that lie on a simple cycle
    together with the root. *)
Theorem C53_one_connected bicomps g r : undirected g -> blocks_of g (bicomps g) ->
  let h := remove_one_connected_components bicomps g r in
  induced_subgraph h g /\
  (forall v, vertex h v <-> vertex g v /\ (v = r \/ exists t, cycle_at (adj g) r t /\ In v t)) /\
  (forall t, cycle_at (adj g) r t <-> cycle_at (adj h) r t).
Proof. exact (one_connected_ok bicomps g r). Qed.
Print Assumptions C53_one_connected.

(** run_preprocessing with any combination of the three implemented steps keeps exactly the
    simple cycles through the root, so it changes neither feasibility nor the optimum. *)
Theorem C53_run_preprocessing component bicomps depth pre (g : nxgraph) r :
  undirected g -> vertex g r -> length g < depth ->
  (pre_components pre = true -> component_of g r (component g r)) ->
  (pre_one_connected pre = true -> forall h, induced_subgraph h g -> blocks_of h (bicomps h)) ->
  pre_shortest_path_cutoff pre = false -> pre_disjoint_path_cutoff pre = false ->
  exists h, run_preprocessing component bicomps depth pre g r = Ok h /\ induced_subgraph h g /\
    (forall t, cycle_at (adj g) r t <-> cycle_at (adj h) r t).
Proof. exact (preprocessing_ok component bicomps depth pre g r). Qed.
Print Assumptions C53_run_preprocessing.

Example C53_run_example :
  run_preprocessing (fun _ _ => [0; 1; 2; 3; 4]) (fun _ => [[0; 1; 2]]) 7
    (mkPre true true true false false) py_G 0 = Ok [(0, [1; 2]); (1, [0; 2]); (2, [1; 0])].
Proof. vm_compute. reflexivity. Qed.

(** On the graph above: components and blocks as networkx reports them. *)
Example C53_example : undirected py_G /\ vertex py_G 0 /\
  component_of py_G 0 [0; 1; 2; 3; 4] /\ blocks_of py_G [[0; 1; 2]; [0; 3]; [3; 4]] /\
  remove_components_disconnected_from_vertex (fun _ _ => [0; 1; 2; 3; 4]) py_G 0 =
    Ok [(0, [1; 2; 3]); (1, [0; 2]); (2, [1; 0]); (3, [0; 4]); (4, [3; 4])] /\
  remove_one_connected_components (fun _ => [[0; 1; 2]; [0; 3]; [3; 4]]) py_G 0 =
    [(0, [1; 2]); (1, [0; 2]); (2, [1; 0])].
Proof.
  assert (U : undirected py_G) by (apply undirectedb_ok; vm_compute; reflexivity).
  assert (A : forall u v, adj py_G u v -> In u [0; 1; 2; 3; 4] /\ In v [0; 1; 2; 3; 4]).
  { intros u v (l & I & J). cbn in I.
    repeat (destruct I as [I|I]; [injection I as <- <-; cbn in *; intuition lia|]). destruct I. }
  split; [exact U|]. split; [cbn; auto|]. split; [|split; [|split; vm_compute; reflexivity]].
  - intros u. split.
    + assert (S : forall a b, reach py_G 0 a -> adjb py_G a b = true -> reach py_G 0 b)
        by (intros a b R E; apply reach_step with a; [exact R|now apply adjb_ok]).
      assert (R3 : reach py_G 0 3) by (apply (S 0 3); [constructor|reflexivity]).
      cbn. intros [<-|[<-|[<-|[<-|[<-|[]]]]]];
        [constructor|apply (S 0 1); [constructor|reflexivity]|apply (S 0 2); [constructor|reflexivity]
        |exact R3|apply (S 3 4); [exact R3|reflexivity]].
    + intros R. destruct R; [cbn; auto|]. now apply A in H.
  - split; [|split].
    + intros c I. cbn in I. split.
      * destruct I as [<-|[<-|[<-|[]]]]; repeat constructor; cbn; lia.
      * intros v J. destruct I as [<-|[<-|[<-|[]]]]; cbn in *; intuition.
    + intros r t C. exists [0; 1; 2]. split; [cbn; auto|]. intros v I.
      assert (T : two_neighbours py_G (fun v => In v t)) by (exact (cycle_two_neighbours _ _ _ U C)).
      assert (N4 : ~ In 4 t).
      { intros I4. destruct (T 4 I4) as (a & b & Q & Qa & Qb & _ & _ & J & J').
        apply (adj_list py_G 4 _ [3; 4] U eq_refl) in J, J'. cbn in J, J'. lia. }
      assert (N3 : ~ In 3 t).
      { intros I3. destruct (T 3 I3) as (a & b & Q & Qa & Qb & Sa & Sb & J & J').
        assert (a <> 4 /\ b <> 4) by (split; intros ->; auto).
        apply (adj_list py_G 3 _ [0; 4] U eq_refl) in J, J'. cbn in J, J'. lia. }
      destruct (T v I) as (a & _ & _ & _ & _ & _ & _ & Av & _). apply A in Av as (Av & _).
      cbn in Av. intuition; subst; cbn; auto; tauto.
    + intros c u v I L Iu Iv Q. cbn in I. destruct I as [<-|[<-|[<-|[]]]]; try (cbn in L; lia).
      cbn in Iu, Iv.
      assert (W : forall a b c, nodupb (a :: [b; c]) && Nat.leb 2 2 && chainb py_G (a :: [b; c] ++ [a]) = true ->
                cycle_at (adj py_G) a (a :: [b; c] ++ [a]) /\ In b (a :: [b; c] ++ [a]) /\ In c (a :: [b; c] ++ [a])).
      { intros a b c E. split; [apply cycle_check; exact E|]. cbn; auto. }
      destruct Iu as [<-|[<-|[<-|[]]]].
      * exists [0; 1; 2; 0]. destruct (W 0 1 2 eq_refl) as (? & ? & ?). split; [auto|]. cbn. intuition.
      * exists [1; 0; 2; 1]. destruct (W 1 0 2 eq_refl) as (? & ? & ?). split; [auto|]. cbn. intuition.
      * exists [2; 0; 1; 2]. destruct (W 2 0 1 eq_refl) as (? & ? & ?). split; [auto|]. cbn. intuition.
Qed.

(** The documentation of remove_one_connected_components promises a graph whose vertices are
    all in one biconnected component. With two triangles sharing the root the result keeps
    both, and no simple cycle passes through vertices of both. *)
Theorem C53_single_block_refuted : exists g comps, undirected g /\
  remove_one_connected_components (fun _ => comps) g 0 = g /\
  (forall c, In c comps -> exists t, cycle_at (adj g) 0 t /\ forall v, In v c -> In v t) /\
  vertex g 1 /\ vertex g 3 /\ ~ exists t, cycle_at (adj g) 1 t /\ In 3 t.
Proof.
  exists [(0, [1; 2; 3; 4]); (1, [0; 2]); (2, [0; 1]); (3, [0; 4]); (4, [0; 3])], [[0; 1; 2]; [0; 3; 4]].
  set (g := [(0, [1; 2; 3; 4]); (1, [0; 2]); (2, [0; 1]); (3, [0; 4]); (4, [0; 3])]).
  assert (U : undirected g) by (apply undirectedb_ok; vm_compute; reflexivity).
  split; [exact U|]. split; [vm_compute; reflexivity|].
  split.
  { intros c [<-|[<-|[]]].
    - exists (0 :: [1; 2] ++ [0]). split; [apply cycle_check; reflexivity|cbn; tauto].
    - exists (0 :: [3; 4] ++ [0]). split; [apply cycle_check; reflexivity|cbn; tauto]. }
  split; [cbn; auto|]. split; [cbn; auto|].
  intros (t & (vs & -> & N & L & C) & I).
  (* a walk from {1,2} to {3,4} passes 0, and back again passes 0 a second time *)
  assert (A : forall u v, adj g u v -> In u [1; 2] -> v = 0 \/ In v [1; 2]).
  { intros u v J [<-|[<-|[]]].
    - apply (adj_list g 1 _ [0; 2] U eq_refl) in J. cbn in *; lia.
    - apply (adj_list g 2 _ [0; 1] U eq_refl) in J. cbn in *; lia. }
  assert (A' : forall u v, adj g u v -> In u [3; 4] -> v = 0 \/ In v [3; 4]).
  { intros u v J [<-|[<-|[]]].
    - apply (adj_list g 3 _ [0; 4] U eq_refl) in J. cbn in *; lia.
    - apply (adj_list g 4 _ [0; 3] U eq_refl) in J. cbn in *; lia. }
  assert (W : forall B : list nat, (forall u v, adj g u v -> In u B -> v = 0 \/ In v B) ->
    forall l x y, chain (adj g) (x :: l ++ [y]) -> In x B -> ~ In y B -> y <> 0 -> In 0 l).
  { intros B HB. induction l as [|z l IH]; intros x y Cx Bx By Y.
    - cbn in Cx. inversion Cx; subst. destruct (HB x y H1 Bx); tauto.
    - cbn in Cx. inversion Cx; subst. destruct (HB x z H1 Bx) as [->|Bz]; [cbn; auto|].
      right. apply (IH z y); auto. }
  assert (I' : In 3 vs).
  { cbn in I. rewrite in_app_iff in I. cbn in I. intuition discriminate. }
  apply in_split in I' as (a & b & ->).
  assert (Z1 : In 0 a).
  { rewrite <- app_assoc in C. cbn in C. replace (1 :: a ++ 3 :: b ++ [1]) with ((1 :: a) ++ 3 :: (b ++ [1])) in C by reflexivity.
    apply chain_split in C as (C & _). cbn in C.
    apply (W [1; 2] A a 1 3); [exact C|cbn; auto|cbn; intuition discriminate|discriminate]. }
  assert (Z2 : In 0 b).
  { rewrite <- app_assoc in C. cbn in C. replace (1 :: a ++ 3 :: b ++ [1]) with ((1 :: a) ++ 3 :: (b ++ [1])) in C by reflexivity.
    apply chain_split in C as (_ & C).
    apply (W [3; 4] A' b 3 1); [exact C|cbn; auto|cbn; intuition discriminate|discriminate]. }
  inversion N; subst. apply in_split in Z1 as (a1 & a2 & ->). apply in_split in Z2 as (b1 & b2 & ->).
  rewrite <- app_assoc in H2. cbn in H2. apply NoDup_remove in H2 as (_ & H2). apply H2.
  rewrite !in_app_iff. cbn. rewrite !in_app_iff. cbn. tauto.
Qed.
Print Assumptions C53_single_block_refuted.

(** ** C38: tours from vertex-disjoint paths *)

(** Two internally disjoint paths with the same ends are joined to a closed simple tour that
    visits exactly the vertices of the two paths, goes along edges, and costs their sum. *)
Theorem C38_tour_from_disjoint_paths (R : nat -> nat -> Prop) cost s t first second :
  (forall u v, R u v -> R v u) -> (forall u v, cost u v = cost v u) ->
  from_to s t first -> from_to s t second -> 2 <= length first -> 2 <= length second ->
  chain R first -> chain R second -> NoDup first -> NoDup second ->
  (forall v, In v first -> In v second -> v = s \/ v = t) ->
  exists tour, tour_from_vertex_disjoint_paths (first, second) = Ok tour /\
    (exists vs, tour = s :: vs ++ [s] /\ NoDup (s :: vs) /\ In t vs /\ chain R tour /\
       length vs = length first + length second - 3) /\
    (forall v, In v tour <-> In v first \/ In v second) /\
    steps_cost cost tour = (steps_cost cost first + steps_cost cost second)%Z.
Proof. exact (tour_from_paths_ok R cost s t first second). Qed.
Print Assumptions C38_tour_from_disjoint_paths.

Example C38_example : let first := [0; 1; 2] in let second := [0; 3; 4; 2] in
  from_to 0 2 first /\ from_to 0 2 second /\ NoDup first /\ NoDup second /\
  (forall v, In v first -> In v second -> v = 0 \/ v = 2) /\
  tour_from_vertex_disjoint_paths (first, second) = Ok [0; 1; 2; 4; 3; 0].
Proof.
  cbv zeta. split; [split; reflexivity|]. split; [split; reflexivity|].
  split; [apply nodupb_ok; reflexivity|]. split; [apply nodupb_ok; reflexivity|].
  split; [intros v; cbn; intuition lia|reflexivity].
Qed.

(** It raises ValueError exactly when a path has fewer than two vertices or the ends differ. *)
Theorem C38_errors first second :
  (exists tour, tour_from_vertex_disjoint_paths (first, second) = Ok tour /\
     exists s t, from_to s t first /\ from_to s t second /\ 2 <= length first /\ 2 <= length second) \/
  (tour_from_vertex_disjoint_paths (first, second) = Throw ValueErrorPy /\
     ~ exists s t, from_to s t first /\ from_to s t second /\ 2 <= length first /\ 2 <= length second).
Proof. exact (tvdp_cases first second). Qed.
Print Assumptions C38_errors.

Example C38_errors_example :
  tour_from_vertex_disjoint_paths ([0; 1; 2], [0; 2]) = Ok [0; 1; 2; 0] /\
  tour_from_vertex_disjoint_paths ([0; 1; 2], [0; 3]) = Throw ValueErrorPy /\
  tour_from_vertex_disjoint_paths ([0], []) = Throw ValueErrorPy.
Proof. split; [|split]; reflexivity. Qed.

(** When both paths are the same single edge the result goes there and back: two paths that
    are disjoint inside give a tour of three or more vertices only if one has an inside. *)
Theorem C38_single_edge_refuted : exists first second tour,
  from_to 0 1 first /\ from_to 0 1 second /\ NoDup first /\ NoDup second /\
  (forall v, In v first -> In v second -> v = 0 \/ v = 1) /\
  tour_from_vertex_disjoint_paths (first, second) = Ok tour /\
  ~ cycle_at (fun u v => u <> v) 0 tour.
Proof.
  exists [0; 1], [0; 1], [0; 1; 0]. split; [split; reflexivity|]. split; [split; reflexivity|].
  split; [apply nodupb_ok; reflexivity|]. split; [apply nodupb_ok; reflexivity|].
  split; [intros v; cbn; intuition lia|]. split; [reflexivity|].
  intros (vs & E & _ & L & _). destruct vs as [|a [|b vs]]; cbn in L; try lia.
  destruct vs; discriminate.
Qed.
Print Assumptions C38_single_edge_refuted.

(** ** C39: the cheapest feasible starting tour *)

Theorem C39_suurballes_heuristic pm cm paths quota : complete_maps pm cm paths ->
  exists tour, suurballes_heuristic pm quota cm paths = Ok tour /\
  ((tour = [] /\ forall v tour' cost, feasible_start pm quota cm paths v tour' cost -> (py_maxsize <= cost)%Z) \/
   (exists v cost, (cost < py_maxsize)%Z /\ feasible_start pm quota cm paths v tour cost /\
      forall v' tour' cost', feasible_start pm quota cm paths v' tour' cost' -> (cost <= cost')%Z)).
Proof. exact (heuristic_ok pm cm paths quota). Qed.
Print Assumptions C39_suurballes_heuristic.

(** Without a feasible pair the initialisation returns a tour of largest prize, if positive. *)
Theorem C39_tour_initialization pm cm paths quota : complete_maps pm cm paths ->
  exists tour, suurballes_tour_initialization pm quota cm paths = Ok tour /\
  ((exists v cost, (cost < py_maxsize)%Z /\ feasible_start pm quota cm paths v tour cost /\
      forall v' tour' cost', feasible_start pm quota cm paths v' tour' cost' -> (cost <= cost')%Z) \/
   ((forall v tour' cost, feasible_start pm quota cm paths v tour' cost -> (py_maxsize <= cost)%Z) /\
    ((tour = [] /\ forall v tour' prize cost, start_tour pm cm paths v tour' prize cost -> (prize <= 0)%Z) \/
     (exists v prize cost, (0 < prize)%Z /\ start_tour pm cm paths v tour prize cost /\
        forall v' tour' prize' cost', start_tour pm cm paths v' tour' prize' cost' -> (prize' <= prize)%Z)))).
Proof. exact (initialization_ok pm cm paths quota). Qed.
Print Assumptions C39_tour_initialization.

Definition py_prizes : list (nat * Z) := [(0, 0%Z); (1, 2%Z); (2, 3%Z); (3, 4%Z)].
Definition py_costs : list (nat * Z) := [(1, 7%Z); (2, 5%Z); (3, 6%Z)].
Definition py_paths : list (nat * (list nat * list nat)) :=
  [(1, ([0; 1], [0; 2; 1])); (2, ([0; 2], [0; 1; 2])); (3, ([0; 1; 3], [0; 2; 3]))].
Example C39_example : complete_maps py_prizes py_costs py_paths /\
  suurballes_heuristic py_prizes 5 py_costs py_paths = Ok [0; 2; 1; 0] /\
  suurballes_heuristic py_prizes 8 py_costs py_paths = Ok [0; 1; 3; 2; 0] /\
  suurballes_heuristic py_prizes 10 py_costs py_paths = Ok [] /\
  suurballes_tour_initialization py_prizes 10 py_costs py_paths = Ok [0; 1; 3; 2; 0].
Proof.
  split; [|vm_compute; auto].
  split; [apply nodupb_ok; reflexivity|]. split; [apply nodupb_ok; reflexivity|].
  split; [apply nodupb_ok; reflexivity|].
  intros v f s I. unfold entry in I. cbn in I.
  assert (P : forall u, In u [0; 1; 2; 3] -> exists p, entry py_prizes u p).
  { intros u J. cbn in J. unfold entry. cbn.
    destruct J as [<-|[<-|[<-|[<-|[]]]]]; eexists; eauto 6. }
  destruct I as [I|[I|[I|[]]]]; injection I as <- <- <-; split.
  - exists [0; 1; 2; 0]. split; [exists 0, 1, [], [2]; auto|]. intros u J. apply P. cbn in *; intuition.
  - exists 7%Z. unfold entry; cbn; auto.
  - exists [0; 2; 1; 0]. split; [exists 0, 2, [], [1]; auto|]. intros u J. apply P. cbn in *; intuition.
  - exists 5%Z. unfold entry; cbn; auto.
  - exists [0; 1; 3; 2; 0]. split; [exists 0, 3, [1], [2]; auto|]. intros u J. apply P. cbn in *; intuition.
  - exists 6%Z. unfold entry; cbn; auto.
Qed.

(** The fallback of the initialisation does not check that the tour is simple. *)
Theorem C39_fallback_not_simple_refuted : exists pm cm paths quota tour,
  NoDup (map fst paths) /\
  suurballes_tour_initialization pm quota cm paths = Ok tour /\
  tour <> [] /\ ~ NoDup (removelast tour).
Proof.
  exists [(0, 1%Z); (1, 1%Z); (2, 1%Z); (3, 1%Z); (4, 1%Z)], [(0, 6%Z)],
    [(0, ([0; 1; 2; 0], [0; 3; 4; 0]))], 100%Z, [0; 1; 2; 0; 4; 3; 0].
  split; [apply nodupb_ok; reflexivity|]. split; [vm_compute; reflexivity|]. split; [discriminate|].
  intros N. cbn in N. inversion N; subst. cbn in *. intuition.
Qed.
Print Assumptions C39_fallback_not_simple_refuted.

(** The limit of the costs is 2^63 - 1: a tour of that cost is not found, one that is cheaper by one is. *)
Example C39_limit : py_maxsize = (2 ^ 63 - 1)%Z /\
  suurballes_heuristic [(0, 1%Z); (1, 1%Z); (2, 1%Z)] 3 [(2, (2 ^ 63 - 1)%Z)] [(2, ([0; 2], [0; 1; 2]))] = Ok [] /\
  suurballes_heuristic [(0, 1%Z); (1, 1%Z); (2, 1%Z)] 3 [(2, (2 ^ 63 - 2)%Z)] [(2, ([0; 2], [0; 1; 2]))] = Ok [0; 2; 1; 0].
Proof. split; [reflexivity|]. split; vm_compute; reflexivity. Qed.

(** One unusable entry makes the whole heuristic fail, even if others are feasible. *)
Theorem C39_trivial_entry_refuted : exists pm cm paths quota v tour cost,
  NoDup (map fst paths) /\ feasible_start pm quota cm paths v tour cost /\ (cost < py_maxsize)%Z /\
  suurballes_heuristic pm quota cm paths = Throw ValueErrorPy.
Proof.
  exists py_prizes, ((0, 0%Z) :: py_costs), (py_paths ++ [(0, ([0], []))]), 5%Z, 2, [0; 2; 1; 0], 5%Z.
  split; [apply nodupb_ok; reflexivity|]. split; [|split; [reflexivity|vm_compute; reflexivity]].
  exists 5%Z. split.
  - exists [0; 2], [0; 1; 2]. split; [unfold entry; cbn; auto|]. split; [exists 0, 2, [], [1]; auto|].
    split; [|unfold entry; cbn; auto]. cbn [removelast].
    apply (pt_cons _ 0 [2; 1] 0 5); [unfold entry; cbn; auto|].
    apply (pt_cons _ 2 [1] 3 2); [unfold entry; cbn; auto|].
    apply (pt_cons _ 1 [] 2 0); [unfold entry; cbn; auto|constructor].
  - split; [reflexivity|]. apply nodupb_ok. reflexivity.
Qed.
Print Assumptions C39_trivial_entry_refuted.

(** ** C40: the breadth-first cycle search *)

(** Whatever order Python iterates over sets in: find_cycle_from_bfs never raises, and returns
    a closed simple tour of three or more vertices from the root if there is one and the empty
    list otherwise. Self loops are allowed. *)
Theorem C40_find_cycle set_order g root : (forall l, Permutation (set_order l) l) ->
  undirected g -> vertex g root ->
  exists t, find_cycle_from_bfs set_order g root = Ok t /\
    ((t = [] /\ forall t', ~ cycle_at (adj g) root t') \/ cycle_at (adj g) root t).
Proof. exact (find_cycle_ok set_order g root). Qed.
Print Assumptions C40_find_cycle.

Example C40_example : undirected py_G /\ vertex py_G 0 /\
  find_cycle_from_bfs (fun l => l) py_G 0 = Ok [0; 1; 2; 0] /\
  find_cycle_from_bfs (@rev nat) py_G 0 = Ok [0; 1; 2; 0] /\
  find_cycle_from_bfs (fun l => l) py_G 3 = Ok [].
Proof.
  split; [apply undirectedb_ok; vm_compute; reflexivity|]. split; [cbn; auto|]. vm_compute. auto.
Qed.

(** ** C54: random starting tours *)

(** random_tour_complete_graph returns a closed tour of distinct vertices that collects the
    quota and has at least three vertices, or visits all vertices; it never adds a vertex
    after both conditions hold. *)
Theorem C54_random_tour_complete_graph pm quota root nodes rnd : NoDup (map fst pm) -> NoDup nodes ->
  (forall v, In v nodes -> exists p, entry pm v p) -> In root nodes -> length nodes <= S (length rnd) ->
  exists vs z, random_tour_complete_graph pm nodes root quota rnd = Ok (root :: vs ++ [root]) /\
    NoDup (root :: vs) /\ (forall v, In v (root :: vs) -> In v nodes) /\
    prizes_total pm (root :: vs) z /\
    (Permutation nodes (root :: vs) \/ ((quota <= z)%Z /\ 2 <= length vs)) /\
    (vs <> [] -> exists z', prizes_total pm (root :: removelast vs) z' /\
       ((z' < quota)%Z \/ length vs <= 2)).
Proof. exact (random_tour_ok pm quota root nodes rnd). Qed.
Print Assumptions C54_random_tour_complete_graph.

Example C54_example :
  random_tour_complete_graph py_prizes [0; 1; 2; 3] 0 6 [1; 4; 3] = Ok [0; 2; 1; 3; 0] /\
  random_tour_complete_graph py_prizes [0; 1; 2; 3] 0 6 [2; 1; 0] = Ok [0; 3; 2; 0].
Proof. split; vm_compute; reflexivity. Qed.

(** If every pair (apart from the root's) is usable and there are at least two, the result is
    the tour of one of them. *)
Theorem C54_random_pair paths root rnd : NoDup (map fst paths) ->
  (exists u v, u <> v /\ u <> root /\ v <> root /\ In u (map fst paths) /\ In v (map fst paths)) ->
  (forall v f s, entry paths v (f, s) -> v <> root ->
     exists tour, there_and_back f s tour /\ 5 <= length f + length s) ->
  2 <= length rnd ->
  exists tour, random_tour_from_disjoint_paths_map paths root rnd = Ok tour /\
    exists v f s, entry paths v (f, s) /\ v <> root /\ there_and_back f s tour.
Proof. exact (random_pair_ok paths root rnd). Qed.
Print Assumptions C54_random_pair.

(** Any tour it returns is the tour of an entry other than the root. *)
Theorem C54_random_pair_result paths root rnd tour : NoDup (map fst paths) ->
  random_tour_from_disjoint_paths_map paths root rnd = Ok tour ->
  exists v f s, entry paths v (f, s) /\ v <> root /\ there_and_back f s tour.
Proof. exact (random_pair_result paths root rnd tour). Qed.
Print Assumptions C54_random_pair_result.

Example C54_pair_example :
  random_tour_from_disjoint_paths_map py_paths 0 [1; 1] = Ok [0; 1; 3; 2; 0].
Proof. vm_compute. reflexivity. Qed.

(** With exactly one pair the function always fails with IndexError, whatever the pair and
    the seed: after checking the vertex it draws another one from the empty list. *)
Theorem C54_single_pair_refuted : exists paths v f s tour, NoDup (map fst paths) /\
  entry paths v (f, s) /\ there_and_back f s tour /\ 5 <= length f + length s /\
  forall rnd, rnd <> [] -> random_tour_from_disjoint_paths_map paths 0 rnd = Throw IndexErrorPy.
Proof.
  exists [(1, ([0; 1], [0; 2; 1]))], 1, [0; 1], [0; 2; 1], [0; 1; 2; 0].
  split; [apply nodupb_ok; reflexivity|]. split; [unfold entry; cbn; auto|].
  split; [exists 0, 1, [], [2]; auto|]. split; [cbn; lia|].
  intros rnd R. apply (random_pair_single _ 0 1 rnd).
  - apply nodupb_ok; reflexivity.
  - cbn; auto.
  - intros u. cbn. intuition.
  - discriminate.
  - exact R.
Qed.
Print Assumptions C54_single_pair_refuted.

(** The pair that is checked is not the pair that is used: the first vertex drawn has a proper
    tour, the returned one goes there and back along one edge. *)
Theorem C54_checked_pair_not_used_refuted : exists paths rnd,
  entry paths 1 ([0; 1], [0; 2; 1]) /\ entry paths 3 ([0; 3], [0; 3]) /\
  random_tour_from_disjoint_paths_map paths 0 rnd = Ok [0; 3; 0].
Proof.
  exists [(1, ([0; 1], [0; 2; 1])); (3, ([0; 3], [0; 3]))], [0; 0].
  split; [unfold entry; cbn; auto|]. split; [unfold entry; cbn; auto|]. vm_compute. reflexivity.
Qed.
Print Assumptions C54_checked_pair_not_used_refuted.
