(** * Properties_MaxFlow: C22, C46 *)
From Coq Require Import Permutation.
From Verif Require Import Base Graph Spec Spec_Cycle M_Walk M_Graph M_Solution M_ILP M_Subtour M_Renaming
  M_MaxFlow Spec_ILP Spec_Flow.
From Verif Require Import P_Base P_Check P_ILP P_CheckILP P_Component P_Separate P_Flow P_MaxFlow P_CheckFlow
  Properties_Cuts.
Open Scope nat_scope.

(** ** C22 *)

(** The two searches split the vertices into those reachable from the source by arcs of
    positive weight and the rest, and no arc of positive weight leads across. *)
Theorem C22_reachable_partition : forall d w s,
  net_ok d -> length w = length (n_arcs d) -> s < n_size d ->
  exists R U, get_reachable d s w = Ok R /\ get_unreachable d s w = Ok U /\
    NoDup R /\ NoDup U /\ In s R /\
    (forall v, In v R <-> dreach d w s v) /\
    (forall v, In v U <-> v < n_size d /\ ~ dreach d w s v) /\
    Permutation (R ++ U) (seq 0 (n_size d)) /\
    (forall u v, In u R -> In v U -> ~ pos_arc d w u v).
Proof. exact reachable_partition. Qed.
Print Assumptions C22_reachable_partition.

(** A maximum flow: the sink is unreachable and the flow is the capacity of the arcs into the
    unreachable part, which is the capacity of a minimum cut. *)
Theorem C22_residual_is_minimum_cut : forall d s t z r,
  net_ok d -> paired d -> s <> t -> s < n_size d -> t < n_size d -> max_flow d s t z r ->
  exists R U, get_reachable d s r = Ok R /\ get_unreachable d s r = Ok U /\
    In s R /\ In t U /\ z = cut_capacity d R /\
    (forall R', NoDup R' -> incl R' (seq 0 (n_size d)) -> In s R' -> ~ In t R' ->
       (cut_capacity d R <= cut_capacity d R')%Z).
Proof. exact residual_minimum_cut. Qed.
Print Assumptions C22_residual_is_minimum_cut.

(** Two units can leave vertex 0, only one can get past vertex 1. *)
Definition small_net : net := mkNet 4
  (four_arcs 0 (0, 1) 2 ++ four_arcs 4 (1, 2) 1 ++ four_arcs 8 (2, 3) 5).
Example C22_case : net_ok small_net /\ paired small_net /\
  max_flow small_net 0 3 1 (snd (ford_lib small_net 0 3)) /\
  get_reachable small_net 0 (snd (ford_lib small_net 0 3)) = Ok [0; 1] /\
  get_unreachable small_net 0 (snd (ford_lib small_net 0 3)) = Ok [2; 3] /\
  cut_capacity small_net [0; 1] = 1%Z.
Proof.
  split; [apply net_okb_spec; vm_compute; reflexivity|].
  split; [apply pairedb_spec; vm_compute; reflexivity|].
  split; [apply max_flowb_spec; [apply net_okb_spec|apply pairedb_spec|]; vm_compute; reflexivity|].
  repeat split; vm_compute; reflexivity.
Qed.

(** ** C46 *)

(** Whatever flows the library returns, the max-flow separation only adds rows every tour
    satisfies, provided the root has a support edge in its component; the counter is at least
    the number of rows. *)
Theorem C46_rows_valid : forall lib mf g s entries root comp st n,
  graph_ok g -> all_loops g -> var_entries g entries ->
  (exists e v, joins g e root v /\ root <> v /\ is_var_positive s e = true /\ In root comp /\ In v comp) ->
  (forall bm d sroot t, maxflow_network g s entries (var_map g) root comp = Ok (bm, d, sroot) ->
     length (snd (mf d sroot t)) = length (n_arcs d)) ->
  exists st' n' added,
    separate_maxflow lib mf g s entries (var_map g) root comp (st, n) = Ok (st', n') /\
    sp_rows st' = sp_rows st ++ added /\ n + length added <= n' /\
    Forall (fun row => forall t x, tour_from g root t -> incidence g t x -> row_sat x row) added.
Proof. exact maxflow_valid. Qed.
Print Assumptions C46_rows_valid.

(** When all support edges lie in the component, the arcs of each support edge carry the
    capacity of that edge, in both directions. *)
Theorem C46_capacities_aligned : forall g s entries root comp,
  var_entries g entries ->
  (exists e v, joins g e root v /\ root <> v /\ is_var_positive s e = true /\ In root comp /\ In v comp) ->
  (forall e u v, joins g e u v -> u <> v -> is_var_positive s e = true -> In u comp /\ In v comp) ->
  exists es bm d sroot,
    get_solution_edges g s entries = Ok es /\
    maxflow_network g s entries (var_map g) root comp = Ok (bm, d, sroot) /\
    get_old_vertex bm sroot = Ok root /\ length (n_arcs d) = 4 * length es /\
    forall i e, nth_error es i = Some e -> exists u v a b,
      nth_error (ge g) e = Some (u, v) /\ get_old_vertex bm a = Ok u /\ get_old_vertex bm b = Ok v /\
      nth_error (n_arcs d) (4 * i) = Some (mkArc a b (capacity_of (s_num s e) (s_den s)) (4 * i + 2)) /\
      nth_error (n_arcs d) (4 * i + 1) = Some (mkArc b a (capacity_of (s_num s e) (s_den s)) (4 * i + 3)) /\
      nth_error (n_arcs d) (4 * i + 2) = Some (mkArc b a 0 (4 * i)) /\
      nth_error (n_arcs d) (4 * i + 3) = Some (mkArc a b 0 (4 * i + 1)).
Proof. exact capacities_aligned. Qed.
Print Assumptions C46_capacities_aligned.

(** Capacities are the values in millionths, up to one millionth (rounding down) or one
    billionth (rounding to 0, 1 and 2), and exact for multiples of a millionth. *)
Theorem C46_capacity_precision : forall num den,
  (0 < den)%Z -> (0 <= num)%Z ->
  (1000 * (den * capacity_of num den) <= 1000000000 * num + den)%Z /\
  (1000000 * num <= den * capacity_of num den + den)%Z /\
  (forall k, num * 1000000 = k * den -> den * capacity_of num den = 1000000 * num)%Z.
Proof. exact capacity_precision. Qed.
Print Assumptions C46_capacity_precision.

(** Support in one component, correct maximum flows: a set that cuts a support vertex off with
    value below two (less the rounding of the capacities) makes the code call for a row for
    this vertex, and the row is for a set with value below two (plus the rounding). *)
Theorem C46_small_cuts_found : forall lib mf g s entries ds root comp st n,
  graph_ok g -> no_parallel g -> all_loops g -> var_entries g entries ->
  degree_constraints g = Ok ds -> Forall (row_sat s) ds ->
  (0 < s_den s)%Z -> (forall e, e < length (ge g) -> (0 <= s_num s e)%Z) ->
  (exists e v, joins g e root v /\ root <> v /\ is_var_positive s e = true /\ In root comp /\ In v comp) ->
  (forall e u v, joins g e u v -> u <> v -> is_var_positive s e = true -> In u comp /\ In v comp) ->
  (forall bm d sroot t, maxflow_network g s entries (var_map g) root comp = Ok (bm, d, sroot) ->
     length (snd (mf d sroot t)) = length (n_arcs d) /\
     (t < n_size d -> t <> sroot -> max_flow d sroot t (fst (mf d sroot t)) (snd (mf d sroot t)))) ->
  exists st' n' added,
    separate_maxflow lib mf g s entries (var_map g) root comp (st, n) = Ok (st', n') /\
    sp_rows st' = sp_rows st ++ added /\
    (forall row, In row added -> exists S v l,
       v < gn g /\ (In root S <-> ~ In v S) /\ joins g l v v /\
       (row_sat s row <-> (2 * s_num s l <= cut_value g (s_num s) S)%Z) /\
       (1000000 * cut_value g (s_num s) S + s_den s <=
        2000000 * s_den s + s_den s * Z.of_nat (length (ge g)))%Z) /\
    (forall e v w S0, joins g e v w -> v <> w -> is_var_positive s e = true ->
       In v S0 -> ~ In root S0 ->
       (1000000000 * cut_value g (s_num s) S0 + s_den s * Z.of_nat (length (ge g))
          < 2000000000 * s_den s)%Z ->
       exists S l row, (In root S <-> ~ In v S) /\ joins g l v v /\
         (row_sat s row <-> (2 * s_num s l <= cut_value g (s_num s) S)%Z) /\
         (1000000 * cut_value g (s_num s) S + s_den s <=
          2000000 * s_den s + s_den s * Z.of_nat (length (ge g)))%Z /\
         (efficacious lib row = true -> In row added)).
Proof. intros lib mf g s entries ds root comp st n; intros. eapply small_cuts_found; eauto. Qed.
Print Assumptions C46_small_cuts_found.

(** The same when all values are multiples of a millionth: for a vertex with y_v = 1 the
    separation is exact.  If a set cuts the vertex off with value below two then a violated
    row is called for; and every row added comes from a set of value below two, so it is
    violated when y_v = 1. *)
Theorem C46_exact_for_full_vertices : forall lib mf g s entries ds root comp st n,
  graph_ok g -> no_parallel g -> all_loops g -> var_entries g entries ->
  degree_constraints g = Ok ds -> Forall (row_sat s) ds ->
  (0 < s_den s)%Z -> (forall e, e < length (ge g) -> (0 <= s_num s e)%Z) ->
  (forall e, e < length (ge g) -> exists k, (s_num s e * 1000000 = k * s_den s)%Z) ->
  (exists e v, joins g e root v /\ root <> v /\ is_var_positive s e = true /\ In root comp /\ In v comp) ->
  (forall e u v, joins g e u v -> u <> v -> is_var_positive s e = true -> In u comp /\ In v comp) ->
  (forall bm d sroot t, maxflow_network g s entries (var_map g) root comp = Ok (bm, d, sroot) ->
     length (snd (mf d sroot t)) = length (n_arcs d) /\
     (t < n_size d -> t <> sroot -> max_flow d sroot t (fst (mf d sroot t)) (snd (mf d sroot t)))) ->
  exists st' n' added,
    separate_maxflow lib mf g s entries (var_map g) root comp (st, n) = Ok (st', n') /\
    sp_rows st' = sp_rows st ++ added /\
    (forall row, In row added -> exists S v l,
       v < gn g /\ (In root S <-> ~ In v S) /\ joins g l v v /\
       (cut_value g (s_num s) S < 2 * s_den s)%Z /\
       (row_sat s row <-> (2 * s_num s l <= cut_value g (s_num s) S)%Z)) /\
    (forall v l S0, joins g l v v -> s_num s l = s_den s -> In v S0 -> ~ In root S0 ->
       (cut_value g (s_num s) S0 < 2 * s_den s)%Z ->
       exists row, ~ row_sat s row /\ (efficacious lib row = true -> In row added)).
Proof. exact exact_for_full. Qed.
Print Assumptions C46_exact_for_full_vertices.

(** The whole separation routine, with either part switched on or off: it succeeds and adds
    only rows that every tour satisfies. *)
Theorem C46_separate_subtour_valid : forall lib mf g s entries root disjoint maxflow st,
  graph_ok g -> all_loops g -> var_entries g entries -> (Z.of_nat (gn g) <= int_max)%Z -> root < gn g ->
  (maxflow = true -> exists e v, joins g e root v /\ root <> v /\ is_var_positive s e = true) ->
  (forall comp bm d sroot t, maxflow_network g s entries (var_map g) root comp = Ok (bm, d, sroot) ->
     length (snd (mf d sroot t)) = length (n_arcs d)) ->
  exists st' nd nf added,
    separate_subtour lib mf g s entries (var_map g) root disjoint maxflow st = Ok (st', nd, nf) /\
    sp_rows st' = sp_rows st ++ added /\ length added <= nd + nf /\
    (disjoint = false -> nd = 0) /\ (maxflow = false -> nf = 0) /\
    Forall (fun row => forall t x, tour_from g root t -> incidence g t x -> row_sat x row) added.
Proof. exact separate_subtour_valid. Qed.
Print Assumptions C46_separate_subtour_valid.

(** A point of the relaxation with connected support, values in millionths and y_root = 1:
    if some vertex with y_v = 1 is cut off from the root with value below two, then a violated
    row is added, provided SCIP accepts the violated rows. *)
Theorem C46_connected_points_separated : forall lib mf g s entries ds rl root disjoint st,
  graph_ok g -> no_parallel g -> all_loops g -> var_entries g entries ->
  (Z.of_nat (gn g) <= int_max)%Z -> root < gn g ->
  degree_constraints g = Ok ds -> Forall (row_sat s) ds ->
  joins g rl root root -> row_sat s (root_constraint rl) ->
  (0 < s_den s)%Z -> (forall e, e < length (ge g) -> (0 <= s_num s e)%Z) ->
  (forall e, e < length (ge g) -> exists k, (s_num s e * 1000000 = k * s_den s)%Z) ->
  (forall e u v, joins g e u v -> u <> v -> is_var_positive s e = true ->
     connected (filter_positive g s) root u) ->
  (forall comp bm d sroot t,
     (forall v, In v comp <-> connected (filter_positive g s) root v) ->
     maxflow_network g s entries (var_map g) root comp = Ok (bm, d, sroot) ->
     length (snd (mf d sroot t)) = length (n_arcs d) /\
     (t < n_size d -> t <> sroot -> max_flow d sroot t (fst (mf d sroot t)) (snd (mf d sroot t)))) ->
  (forall row, ~ row_sat s row -> efficacious lib row = true) ->
  (exists v l S0, joins g l v v /\ s_num s l = s_den s /\ In v S0 /\ ~ In root S0 /\
     (cut_value g (s_num s) S0 < 2 * s_den s)%Z) ->
  exists st' nd nf added,
    separate_subtour lib mf g s entries (var_map g) root disjoint true st = Ok (st', nd, nf) /\
    sp_rows st' = sp_rows st ++ added /\
    Forall (fun row => forall t x, tour_from g root t -> incidence g t x -> row_sat x row) added /\
    Exists (fun row => ~ row_sat s row) added.
Proof. exact connected_points_separated. Qed.
Print Assumptions C46_connected_points_separated.

(** Two triangles joined by two edges of value 1/2, connected support, all y_v = 1; the second
    triangle is cut off with value 1. *)
Definition half : sol := list_sol 2 [2;2;1;1;2;2;1;1;2;2;2;2;2;2]%Z.
Definition all6 : list nat := [0;1;2;3;4;5].

Lemma half_lib : forall comp bm d sroot t,
  (forall v, In v comp <-> In v all6) ->
  maxflow_network cut_g half (id_entries cut_g) (var_map cut_g) 0 comp = Ok (bm, d, sroot) ->
  length (snd (ford_lib d sroot t)) = length (n_arcs d) /\
  (t < n_size d -> t <> sroot -> max_flow d sroot t (fst (ford_lib d sroot t)) (snd (ford_lib d sroot t))).
Proof.
  intros comp bm d sroot t Hc E. rewrite (network_comp_ext _ _ _ _ _ _ _ Hc) in E.
  split; [apply ford_sized|]. vm_compute in E. inversion E; subst. intros Ht Hne.
  apply lib_okb_spec; [vm_compute; reflexivity|exact Ht|exact Hne].
Qed.

Lemma half_comp v : In v all6 <-> connected (filter_positive cut_g half) 0 v.
Proof.
  split.
  - assert (G : forall a b, edgeb (filter_positive cut_g half) a b = true ->
      connected (filter_positive cut_g half) 0 a -> connected (filter_positive cut_g half) 0 b).
    { intros a b H Ha. eapply conn_step; [exact Ha|]. now apply edgeb_spec. }
    assert (H0 : connected (filter_positive cut_g half) 0 0) by constructor.
    assert (H1 := G 0 1 eq_refl H0). assert (H2 := G 0 2 eq_refl H0). assert (H3 := G 2 3 eq_refl H2).
    assert (H4 := G 0 4 eq_refl H0). assert (H5 := G 4 5 eq_refl H4).
    cbn. intros [<-|[<-|[<-|[<-|[<-|[<-|[]]]]]]]; auto.
  - intros H. apply (connected_lt (filter_positive cut_g half) 0 v) in H.
    + cbn in H. unfold all6. cbn. lia.
    + apply graph_okb_spec. reflexivity.
    + cbn. lia.
Qed.

(** All hypotheses of the three theorems hold at [half], where {3,4,5} has value 1 (over 2:
    2/2 < 2), and the rows are found. *)
Example C46_case : graph_ok cut_g /\ no_parallel cut_g /\ all_loops cut_g /\
  var_entries cut_g (id_entries cut_g) /\
  (exists ds, degree_constraints cut_g = Ok ds /\ Forall (row_sat half) ds) /\
  (exists rl, joins cut_g rl 0 0 /\ row_sat half (root_constraint rl)) /\
  (0 < s_den half)%Z /\ (forall e, e < length (ge cut_g) -> (0 <= s_num half e)%Z) /\
  (forall e, e < length (ge cut_g) -> exists k, (s_num half e * 1000000 = k * s_den half)%Z) /\
  (exists e v, joins cut_g e 0 v /\ 0 <> v /\ is_var_positive half e = true /\ In 0 all6 /\ In v all6) /\
  (forall e u v, joins cut_g e u v -> u <> v -> is_var_positive half e = true ->
     (In u all6 /\ In v all6) /\ connected (filter_positive cut_g half) 0 u) /\
  (forall comp bm d sroot t,
     (forall v, In v comp <-> connected (filter_positive cut_g half) 0 v) ->
     maxflow_network cut_g half (id_entries cut_g) (var_map cut_g) 0 comp = Ok (bm, d, sroot) ->
     length (snd (ford_lib d sroot t)) = length (n_arcs d) /\
     (t < n_size d -> t <> sroot ->
        max_flow d sroot t (fst (ford_lib d sroot t)) (snd (ford_lib d sroot t)))) /\
  (forall row, ~ row_sat half row -> efficacious (violated_rows half) row = true) /\
  joins cut_g 12 4 4 /\ s_num half 12 = s_den half /\
  (cut_value cut_g (s_num half) [3;4;5]%nat < 2 * s_den half)%Z /\
  (exists row1 row2 row3,
     separate_subtour (violated_rows half) ford_lib cut_g half (id_entries cut_g) (var_map cut_g) 0 true true no_rows
       = Ok (mkSepa [row1; row2; row3] Separated, 0, 3)) /\
  separate_subtour (violated_rows half) ford_lib cut_g half (id_entries cut_g) (var_map cut_g) 0 true false no_rows
    = Ok (no_rows, 0, 0).
Proof.
  assert (Hin : forall e u v, joins cut_g e u v -> In u all6 /\ In v all6).
  { intros e u v H. assert (Hg : graph_ok cut_g) by check.
    assert (He : is_edge cut_g u v) by (now exists e).
    apply (is_edge_range cut_g u v Hg) in He. cbn in He. unfold all6. cbn. lia. }
  split; [check|]. split; [checkI|]. split; [checkI|]. split; [apply id_entries_ok|].
  split; [eexists; split; [vm_compute; reflexivity|]; checkI|].
  split; [exists 8; split; [now left|checkI]|].
  split; [reflexivity|].
  split. { apply (forall_edges (fun e => 0 <= s_num half e)%Z (fun e => 0 <=? s_num half e)%Z); [intros e; apply Z.leb_le|vm_compute; reflexivity]. }
  split. { intros e _. exists (s_num half e * 500000)%Z. change (s_den half) with 2%Z. lia. }
  split; [exists 0, 1; split; [now left|]; cbn; auto 10|].
  split. { intros e u v Hj Hne Hpos. destruct (Hin e u v Hj) as [H1 H2]. split; [auto|]. now apply half_comp. }
  split. { intros comp bm d sroot t Hc. apply half_lib. intros v. now rewrite Hc, half_comp. }
  split. { intros row Hr. cbn [efficacious violated_rows]. destruct (rowb half row) eqn:Er; auto.
           apply rowb_spec in Er. contradiction. }
  split; [now left|]. split; [reflexivity|]. split; [vm_compute; reflexivity|].
  split; [do 3 eexists; vm_compute; reflexivity|vm_compute; reflexivity].
Qed.

(** ** what fails *)

(** A root without support edge, which the model's root row excludes but a value within the
    tolerance of 0 does not: the name of the root is looked up past the end of the lookup. *)
Theorem C46_root_without_edge_refuted : exists g s root,
  graph_ok g /\ all_loops g /\ root < gn g /\
  separate_subtour all_rows ford_lib g s (id_entries g) (var_map g) root true true no_rows = UB IterPastEnd.
Proof.
  exists cut_g, (heuristic_sol [3;4;5;11;12;13]), 0. split; [check|]. split; [checkI|].
  split; [cbn; lia|vm_compute; reflexivity].
Qed.

(** Three vertices 6, 7, 8 in a component of their own, whose edges come first. *)
Definition mis_g : graph := mkGraph 9
  [(6,7);(7,8);(8,6);(2,3);(0,4);(0,1);(1,2);(2,0);(3,4);(4,5);(5,3);
   (0,0);(1,1);(2,2);(3,3);(4,4);(5,5);(6,6);(7,7);(8,8)].
Definition mis_s : sol := list_sol 2 [2;2;2;1;1;2;2;1;1;2;2;2;2;2;2;2;2;2;2;2]%Z.

(** Support in more than one component: the capacities of the root's component are those of
    other edges (the vector is indexed by position among all support edges, line 353).  Edge
    (2,3) of value 1/2 gets capacity 1; the set {3,4,5} of value 1 is missed for vertex 4 with
    y_4 = 1, and no violated row is added although the counter says two. *)
Theorem C46_capacities_misaligned_refuted : exists g s ds root,
  graph_ok g /\ no_parallel g /\ all_loops g /\
  degree_constraints g = Ok ds /\ Forall (row_sat s) ds /\
  (exists rl, joins g rl root root /\ row_sat s (root_constraint rl)) /\
  (exists v l S0, joins g l v v /\ s_num s l = s_den s /\ In v S0 /\ ~ In root S0 /\
     (cut_value g (s_num s) S0 < 2 * s_den s)%Z /\
     Forall (fun u => connected (filter_positive g s) root u) S0) /\
  (exists es bm d sroot i e u v a b cap r,
     get_solution_edges g s (id_entries g) = Ok es /\
     maxflow_network g s (id_entries g) (var_map g) root all6 = Ok (bm, d, sroot) /\
     nth_error es i = Some e /\ nth_error (ge g) e = Some (u, v) /\
     nth_error (n_arcs d) 0 = Some (mkArc a b cap r) /\
     get_old_vertex bm a = Ok u /\ get_old_vertex bm b = Ok v /\
     cap <> capacity_of (s_num s e) (s_den s)) /\
  separate_subtour (violated_rows s) ford_lib g s (id_entries g) (var_map g) root false true no_rows
    = Ok (no_rows, 0, 2).
Proof.
  exists mis_g, mis_s. eexists. exists 0. split; [check|]. split; [checkI|]. split; [checkI|].
  split; [vm_compute; reflexivity|]. split; [checkI|].
  split; [exists 11; split; [now left|checkI]|]. split.
  { exists 4, 15, [3;4;5]. split; [now left|]. split; [reflexivity|]. split; [cbn; auto|].
    split; [cbn; lia|]. split; [vm_compute; reflexivity|].
    assert (G : forall a b, edgeb (filter_positive mis_g mis_s) a b = true ->
      connected (filter_positive mis_g mis_s) 0 a -> connected (filter_positive mis_g mis_s) 0 b).
    { intros a b H Ha. eapply conn_step; [exact Ha|]. now apply edgeb_spec. }
    assert (H0 : connected (filter_positive mis_g mis_s) 0 0) by constructor.
    assert (H4 := G 0 4 eq_refl H0). assert (H5 := G 4 5 eq_refl H4). assert (H3 := G 5 3 eq_refl H5).
    auto. }
  split; [|vm_compute; reflexivity].
  do 4 eexists. exists 3. do 7 eexists. split; [vm_compute; reflexivity|]. split; [vm_compute; reflexivity|].
  split; [vm_compute; reflexivity|]. split; [vm_compute; reflexivity|]. split; [vm_compute; reflexivity|].
  split; [vm_compute; reflexivity|]. split; [vm_compute; reflexivity|]. vm_compute. discriminate.
Qed.

(** The rounding matters: on the complete graph with four vertices and all edges 2/3 every
    cut has value at least 2, yet three rows are called for and counted, none violated. *)
Definition third_g : graph := mkGraph 4
  [(0,1);(0,2);(0,3);(1,2);(1,3);(2,3);(0,0);(1,1);(2,2);(3,3)].
Definition third_s : sol := list_sol 3 [2;2;2;2;2;2;3;3;3;3]%Z.
Theorem C46_rounded_flow_refuted : exists g s ds root rows,
  graph_ok g /\ no_parallel g /\ all_loops g /\
  degree_constraints g = Ok ds /\ Forall (row_sat s) ds /\
  separate_subtour all_rows ford_lib g s (id_entries g) (var_map g) root true true no_rows
    = Ok (mkSepa rows Separated, 0, 3) /\
  length rows = 3 /\ Forall (row_sat s) rows.
Proof.
  exists third_g, third_s. eexists. exists 0. eexists. split; [check|]. split; [checkI|]. split; [checkI|].
  split; [vm_compute; reflexivity|]. split; [checkI|]. split; [vm_compute; reflexivity|].
  split; [reflexivity|checkI].
Qed.

(** Flow below two is not a violated row when y_v < 1: vertex 3 with y_3 = 1/2. *)
Definition light_g : graph := mkGraph 4
  [(0,1);(0,2);(1,2);(1,3);(2,3);(0,0);(1,1);(2,2);(3,3)].
Definition light_s : sol := list_sol 2 [2;2;1;1;1;2;2;2;1]%Z.
Theorem C46_light_vertex_refuted : exists g s ds root row,
  graph_ok g /\ no_parallel g /\ all_loops g /\
  degree_constraints g = Ok ds /\ Forall (row_sat s) ds /\
  separate_subtour all_rows ford_lib g s (id_entries g) (var_map g) root true true no_rows
    = Ok (mkSepa [row] Separated, 0, 1) /\ row_sat s row.
Proof.
  exists light_g, light_s. eexists. exists 0. eexists. split; [check|]. split; [checkI|]. split; [checkI|].
  split; [vm_compute; reflexivity|]. split; [checkI|]. split; [vm_compute; reflexivity|]. checkI.
Qed.

(** A violated inequality is missed although capacities are exact and support is connected:
    {3,4,5} has value 1 < 2 y_3 = 1.2, but the cuts found for vertices 1 and 2 contain it, mark
    3, 4 and 5 as done and give no violated row. *)
Definition missed_g : graph := mkGraph 7
  [(0,1);(0,2);(0,6);(1,3);(2,4);(3,4);(3,5);(4,5);(0,0);(1,1);(2,2);(3,3);(4,4);(5,5);(6,6)].
Definition missed_s : sol := list_sol 20 [16;16;8;10;10;2;12;12;20;13;13;12;12;12;4]%Z.
Theorem C46_violated_missed_refuted : exists g s ds root,
  graph_ok g /\ no_parallel g /\ all_loops g /\
  degree_constraints g = Ok ds /\ Forall (row_sat s) ds /\
  (exists rl, joins g rl root root /\ row_sat s (root_constraint rl)) /\
  (forall e, e < length (ge g) -> exists k, (s_num s e * 1000000 = k * s_den s)%Z) /\
  (exists v l S0 row st', joins g l v v /\ In v S0 /\ ~ In root S0 /\
     (cut_value g (s_num s) S0 < 2 * s_num s l)%Z /\
     add_sec all_rows g (var_map g) S0 root v no_rows = Ok st' /\ sp_rows st' = [row] /\ ~ row_sat s row) /\
  separate_subtour (violated_rows s) ford_lib g s (id_entries g) (var_map g) root true true no_rows
    = Ok (no_rows, 0, 9).
Proof.
  exists missed_g, missed_s. eexists. exists 0. split; [check|]. split; [checkI|]. split; [checkI|].
  split; [vm_compute; reflexivity|]. split; [checkI|].
  split; [exists 8; split; [now left|checkI]|].
  split. { intros e _. exists (s_num missed_s e * 50000)%Z. change (s_den missed_s) with 20%Z. lia. }
  split; [|vm_compute; reflexivity].
  exists 3, 11, [3;4;5]. do 2 eexists. split; [now left|]. split; [cbn; auto|]. split; [cbn; lia|].
  split; [vm_compute; reflexivity|]. split; [vm_compute; reflexivity|]. split; [reflexivity|checkI].
Qed.
