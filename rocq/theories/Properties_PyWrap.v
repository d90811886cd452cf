(** * Properties_PyWrap: C44 (options of the Python wrappers), C56 (run_heuristic) *)
From Coq Require Import Permutation.
From Verif Require Import Base Graph Spec Spec_Gain M_Float M_Walk M_Graph M_Dijkstra M_Extension M_Collapse M_Gain
  M_Renaming M_Python M_PyCycle M_PyWrap Spec_Rename Spec_Python Spec_PyWrap.
From Verif Require Import P_Base P_Check P_Dijkstra P_Python P_PyCycle P_Renaming P_Bindings P_PyWrap.
Open Scope nat_scope.

(** ** C44 *)

(** [list(graph.edges())] has every edge once, and the graph a caller means exists. *)
Theorem C44_graph_of_caller : forall W N, undirected (pg_adj W) -> (forall v, vertex (pg_adj W) v -> v < N) ->
  exists G c p, ge G = py_edges W /\ gn G = N /\ same_graph (pg_adj W) (pg_cost W) (pg_prize W) G c p.
Proof.
  intros W N U B. exists (view_graph N W), (view_costs W), (view_prizes N W).
  split; [reflexivity|]. split; [reflexivity|]. exact (view_ok W N U B).
Qed.
Print Assumptions C44_graph_of_caller.

(** The dictionaries the wrappers pass give the costs and prizes of that graph, so that every
    theorem about the bindings (C52) applies. *)
Theorem C44_arguments : forall W G c p, ge G = py_edges W -> undirected (pg_adj W) -> no_isolated (pg_adj W) ->
  attributes_fit (pg_cost W) (pg_prize W) -> same_graph (pg_adj W) (pg_cost W) (pg_prize W) G c p ->
  exists cd pd n, py_dicts W = Ok (cd, pd) /\ call_with G cd pd c p n.
Proof. exact call_ok. Qed.
Print Assumptions C44_arguments.

(** Every wrapper except path_extension runs the C++ function on the relabelled graph with the
    options under their own names, whatever their values and whatever the C++ function does
    (including exceptions and undefined behaviour). *)
Theorem C44_options_reach : forall W G c p tb root tour,
  ge G = py_edges W -> undirected (pg_adj W) -> no_isolated (pg_adj W) ->
  attributes_fit (pg_cost W) (pg_prize W) -> same_graph (pg_adj W) (pg_cost W) (pg_prize W) G c p ->
  vertex (pg_adj W) root -> Forall (vertex (pg_adj W)) tour ->
  exists labels g q r t, relabelled labels g q G p /\ nth_error labels r = Some root /\ renamed labels t tour /\
    forall quota path_depth_limit step_size shortest,
    fits_int quota -> fits_int path_depth_limit -> fits_int step_size ->
    reaches labels (path_extension_until g t c q r quota step_size path_depth_limit)
                   (py_path_extension_until W tour root quota step_size path_depth_limit) /\
    reaches labels (path_extension_collapse tb g t c q quota r shortest path_depth_limit step_size)
                   (py_path_extension_collapse tb W tour root quota shortest path_depth_limit step_size) /\
    reaches labels (extension_unitary_loss g t c q r) (py_extension_unitary_loss W tour root) /\
    reaches labels (collapse tb g t c q quota r true) (py_path_collapse tb W tour quota root) /\
    reaches labels (collapse tb g t c q quota r false) (py_collapse tb W tour quota root) /\
    reaches labels (extension_unitary_gain g t c q) (py_extension_unitary_gain W tour) /\
    reaches labels (extension_until_prize_feasible g t c q quota) (py_extension_until W tour quota).
Proof.
  intros W G c p tb root tour HE U NI HF HS VR VT.
  destruct (call_setup W G c p HE U NI HF HS) as (cd & pd & labels & g & q & ED & ER & FM & RL & GV & GT).
  destruct (GV root VR) as (r & NR & GR). destruct (GT tour VT) as (t & RT & GR').
  exists labels, g, q, r, t. split; [exact RL|]. split; [exact NR|]. split; [exact RT|].
  intros quota d s sh FQ FD FS. pose proof (proj1 RL) as ND.
  unfold py_path_extension_until, py_path_extension_collapse, py_extension_unitary_loss, py_path_collapse,
    py_collapse, py_extension_unitary_gain, py_extension_until.
  rewrite ED. cbn [bind]. rewrite !py_int_fits by assumption. cbn [bind].
  unfold path_extension_until_bind, path_extension_collapse_bind, path_extension_bind, collapse_bind,
    extension_unitary_gain_bind, extension_until_bind.
  rewrite ER, GR, GR'. cbn [bind]. rewrite FM. cbn [bind fst snd].
  repeat match goal with |- _ /\ _ => split end; apply reaches_old; exact ND.
Qed.
Print Assumptions C44_options_reach.

(** path_extension passes its two options in the wrong order: the C++ function gets the depth
    limit as step size and the step size as depth limit. *)
Theorem C44_path_extension_swapped : forall W G c p root tour,
  ge G = py_edges W -> undirected (pg_adj W) -> no_isolated (pg_adj W) ->
  attributes_fit (pg_cost W) (pg_prize W) -> same_graph (pg_adj W) (pg_cost W) (pg_prize W) G c p ->
  vertex (pg_adj W) root -> Forall (vertex (pg_adj W)) tour ->
  exists labels g q r t, relabelled labels g q G p /\ nth_error labels r = Some root /\ renamed labels t tour /\
    forall path_depth_limit step_size, fits_int path_depth_limit -> fits_int step_size ->
    reaches labels (path_extension g t c q r path_depth_limit (*as step size*) step_size (*as depth limit*))
                   (py_path_extension W tour root path_depth_limit step_size).
Proof.
  intros W G c p root tour HE U NI HF HS VR VT.
  destruct (call_setup W G c p HE U NI HF HS) as (cd & pd & labels & g & q & ED & ER & FM & RL & GV & GT).
  destruct (GV root VR) as (r & NR & GR). destruct (GT tour VT) as (t & RT & GR').
  exists labels, g, q, r, t. split; [exact RL|]. split; [exact NR|]. split; [exact RT|].
  intros d s FD FS. pose proof (proj1 RL) as ND. unfold py_path_extension.
  rewrite ED. cbn [bind]. rewrite !py_int_fits by assumption. cbn [bind]. unfold path_extension_bind.
  rewrite ER, GR, GR'. cbn [bind]. rewrite FM. cbn [bind fst snd]. apply reaches_old; exact ND.
Qed.
Print Assumptions C44_path_extension_swapped.

(** In particular path_extension with step_size 1, the default, never changes the tour, whatever
    the depth limit. *)
Theorem C44_path_extension_does_nothing : forall W G c p n C P root tour path_depth_limit,
  ge G = py_edges W -> undirected (pg_adj W) -> no_isolated (pg_adj W) ->
  attributes_fit (pg_cost W) (pg_prize W) -> same_graph (pg_adj W) (pg_cost W) (pg_prize W) G c p ->
  vertex_count (ge G) n -> costs_within G c 0 C -> prizes_within G p 0 P -> small_numbers n C P ->
  closed_tour G root 1 tour -> fits_int path_depth_limit -> path_depth_limit <> 0%Z ->
  py_path_extension W tour root path_depth_limit 1 = Ok tour.
Proof.
  intros W G c p n C P root tour d HE U NI HF HS Hn HC HP HN T FD D0.
  assert (WD : costs_within G c (- C) C).
  { destruct HN as (C0 & _). destruct HC as (L & F). split; [exact L|]. eapply Forall_impl; [|exact F].
    intros x; cbv beta; lia. }
  destruct (call_n W G c p n HE U NI HF HS Hn) as (cd & pd & E & H).
  pose proof HN as (C0 & P0 & N1 & N2 & N3 & N4).
  destruct (path_extension_bind_ok G cd pd c p n C P H N1 WD HP C0 P0 N2 ltac:(lia) root d 1%Z tour T FD D0)
    as (t' & EB & _).
  unfold py_path_extension. rewrite E. cbn [bind]. rewrite !py_int_fits by (assumption || (unfold fits_int, int_min, int_max; lia)).
  cbn [bind]. rewrite <- HE, EB. f_equal.
  assert (VT : Forall (vertex (pg_adj W)) tour) by (eapply closed_in_vertex; eauto).
  assert (VR : vertex (pg_adj W) root).
  { destruct T as (vs & ET & _). rewrite ET in VT. inversion VT; assumption. }
  destruct (call_setup W G c p HE U NI HF HS) as (cd' & pd' & labels & g & q & ED & ER & FM & RL & GV & GT).
  rewrite E in ED. inversion ED; subst cd' pd'.
  destruct (GV root VR) as (r & NR & GR). destruct (GT tour VT) as (t & RT & GR').
  unfold path_extension_bind in EB. rewrite HE, ER, GR, GR' in EB. cbn [bind] in EB. rewrite FM in EB. cbn [bind fst snd] in EB.
  destruct (path_extension g t c q r d 1) as [t1|e|u|] eqn:EP; cbn [bind] in EB; try discriminate.
  apply path_extension_shallow in EP; [|lia]. subst t1.
  rewrite (get_old_vertices_ok labels t tour RT) in EB. congruence.
Qed.
Print Assumptions C44_path_extension_does_nothing.

(** Options outside the range of a C++ int raise TypeError and run nothing. *)
Theorem C44_option_range : forall W tb tour root quota d s shortest cd pd, py_dicts W = Ok (cd, pd) ->
  ~ (fits_int quota /\ fits_int d /\ fits_int s) ->
  py_path_extension_until W tour root quota s d = Throw TypeErrorPy /\
  py_path_extension_collapse tb W tour root quota shortest d s = Throw TypeErrorPy.
Proof.
  intros W tb tour root quota d s sh cd pd E H. unfold py_path_extension_until, py_path_extension_collapse.
  rewrite E. cbn [bind].
  assert (D : forall z, fits_int z \/ ~ fits_int z) by (intros z; unfold fits_int; lia).
  destruct (D quota) as [Q|Q]; [rewrite (py_int_fits _ Q)|rewrite (py_int_range _ Q)]; cbn [bind]; [|auto].
  destruct (D d) as [X|X]; [rewrite (py_int_fits _ X)|rewrite (py_int_range _ X)];
  (destruct (D s) as [Y|Y]; [rewrite (py_int_fits _ Y)|rewrite (py_int_range _ Y)]); cbn [bind]; auto.
  tauto.
Qed.
Print Assumptions C44_option_range.

(** A graph with labels 10, 20, ..., 50: a triangle 10, 20, 30 with 40 next to 10, 20 and 50 next
    to 20, 30. *)
Definition attrs_of (es : list (nat * nat * Z)) (u v : nat) : option Z :=
  match find (fun e => let '(a, b, _) := e in
    orb (andb (Nat.eqb a u) (Nat.eqb b v)) (andb (Nat.eqb a v) (Nat.eqb b u))) es with
  | Some (_, _, x) => Some x
  | None => None
  end.
Definition wrap_W : pygraph := mkPy
  [(10, [20;30;40]); (20, [10;30;40;50]); (30, [20;10;50]); (40, [10;20]); (50, [20;30])]
  (attrs_of [(10,20,2%Z);(20,30,2%Z);(30,10,2%Z);(10,40,1%Z);(20,40,1%Z);(20,50,3%Z);(30,50,3%Z)])
  (dget [(10,1%Z);(20,1%Z);(30,1%Z);(40,9%Z);(50,2%Z)]).
Definition wrap_G := view_graph 51 wrap_W.
Definition wrap_c := view_costs wrap_W.
Definition wrap_p := view_prizes 51 wrap_W.

Lemma attrs_range es lo hi u v : (lo <= 0 <= hi)%Z -> forallb (fun e => let '(_, _, x) := e in andb (Z.leb lo x) (Z.leb x hi)) es = true ->
  (lo <= attr (attrs_of es u v) <= hi)%Z.
Proof.
  intros Z0 H. unfold attrs_of. destruct (find _ es) as [((a & b) & x)|] eqn:E; [|exact Z0].
  apply find_some in E as (I & _). rewrite forallb_forall in H. specialize (H _ I). cbn in H.
  apply andb_prop in H as (H1 & H2). apply Z.leb_le in H1, H2. cbn. lia.
Qed.

Lemma dget_range d lo hi v : (lo <= 0 <= hi)%Z -> forallb (fun e : nat * Z => andb (Z.leb lo (snd e)) (Z.leb (snd e) hi)) d = true ->
  (lo <= attr (dget d v) <= hi)%Z.
Proof.
  intros Z0 H. induction d as [|(k & x) d IH]; [exact Z0|]. cbn [forallb] in H. apply andb_prop in H as (H1 & H2).
  cbn [dget]. destruct (Nat.eqb v k); [|auto]. cbn in H1. apply andb_prop in H1 as (A & B). apply Z.leb_le in A, B. cbn. lia.
Qed.

Lemma no_isolatedb g : forallb (fun e : nat * list nat => match snd e with [] => false | _ => true end) g = true -> no_isolated g.
Proof.
  intros H v V. apply in_map_iff in V as ((v' & l) & E & I). cbn in E. subst v'. rewrite forallb_forall in H.
  specialize (H _ I). cbn in H. destruct l as [|u l]; [discriminate|]. exists u, (u :: l). cbn. auto.
Qed.

Lemma wrap_ok : ge wrap_G = py_edges wrap_W /\ undirected (pg_adj wrap_W) /\ no_isolated (pg_adj wrap_W) /\
  attributes_fit (pg_cost wrap_W) (pg_prize wrap_W) /\
  same_graph (pg_adj wrap_W) (pg_cost wrap_W) (pg_prize wrap_W) wrap_G wrap_c wrap_p /\
  vertex_count (ge wrap_G) 5 /\ costs_within wrap_G wrap_c 0 3 /\ prizes_within wrap_G wrap_p 0 9 /\ small_numbers 5 3 9.
Proof.
  assert (U : undirected (pg_adj wrap_W)) by (apply undirectedb_ok; vm_compute; reflexivity).
  split; [reflexivity|]. split; [exact U|]. split; [apply no_isolatedb; vm_compute; reflexivity|].
  split; [split; intros; [apply attrs_range|apply dget_range]; try (unfold int_min, int_max; lia); vm_compute; reflexivity|].
  split; [apply view_ok; [exact U|]; intros v V; cbn in V; lia|].
  split; [exists [10;20;30;40;50]; split; [repeat constructor; cbn; lia|]; split; [intros v; vm_compute; tauto|reflexivity]|].
  split; [check|]. split; [check|]. unfold small_numbers, int_max. lia.
Qed.

Example C44_case : closed_tour wrap_G 10 2 [10;20;30;10] /\
  py_path_extension_until wrap_W [10;20;30;10] 10 14 1 2 = Ok [10;40;20;50;30;10] /\
  py_extension_unitary_loss wrap_W [10;20;30;10] 10 = Ok [10;40;20;30;10] /\
  py_path_extension wrap_W [10;20;30;10] 10 2 1 = Ok [10;20;30;10].
Proof. split; [check|]. vm_compute. auto. Qed.

(** path_extension(..., path_depth_limit=2, step_size=1) does not do what the C++ function does
    with depth limit 2 and step size 1. *)
Theorem C44_path_extension_options_refuted : exists W tour root path_depth_limit step_size cd pd t1 t2,
  py_dicts W = Ok (cd, pd) /\
  py_path_extension W tour root path_depth_limit step_size = Ok t1 /\
  path_extension_bind (py_edges W) tour cd pd root step_size path_depth_limit = Ok t2 /\ t1 <> t2.
Proof.
  exists wrap_W, [10;20;30;10], 10, 2%Z, 1%Z. do 2 eexists. exists [10;20;30;10], [10;40;20;30;10].
  split; [vm_compute; reflexivity|]. split; [vm_compute; reflexivity|]. split; [vm_compute; reflexivity|discriminate].
Qed.
Print Assumptions C44_path_extension_options_refuted.

(** ** C56: run_heuristic *)

(** The path extension & collapse algorithms, from any closed starting tour at the root: the
    result is empty or a closed tour at the root that collects the quota; a feasible start is
    never lost or made more expensive. Missing or zero options are replaced by the number of
    vertices and by 10. *)
Theorem C56_path_extension_collapse : forall W G c p n C P tb set_order,
  ge G = py_edges W -> undirected (pg_adj W) -> no_isolated (pg_adj W) ->
  attributes_fit (pg_cost W) (pg_prize W) -> same_graph (pg_adj W) (pg_cost W) (pg_prize W) G c p ->
  vertex_count (ge G) n -> costs_within G c 0 C -> prizes_within G p 0 P -> small_numbers n C P -> good_pick tb ->
  forall root quota algorithm cost_map paths_map collapse_paths depth step m t,
  algorithm = BfsPathExtensionCollapse \/ algorithm = SuurballesPathExtensionCollapse ->
  heuristic_start set_order W quota root algorithm cost_map paths_map = Ok t ->
  1 <= m <= 2 -> closed_tour G root m t -> fits_int quota ->
  (forall z, depth = Some z -> fits_int z) -> (forall z, step = Some z -> fits_int z /\ (z < int_max)%Z) ->
  (Z.of_nat (length (pg_adj W)) <= int_max)%Z ->
  exists t', run_heuristic tb set_order W quota root algorithm cost_map paths_map collapse_paths depth step =
      Ok (edge_list_from_walk t') /\
    (t' = [] \/ closed_tour G root m t' /\ exists z, tour_prize p t' z /\ (quota <= z)%Z) /\
    (forall z, tour_prize p t z -> (quota <= z)%Z -> exists x y,
       t' <> [] /\ walk_cost G c t x /\ walk_cost G c t' y /\ (y <= x)%Z).
Proof.
  intros W G c p n C P tb so HE U NI HF HS Hn HC HP HN HT root quota alg cm pm cp depth step m t AL ST M T FQ FD FS LN.
  assert (D1 : fits_int (or_default depth (Z.of_nat (length (pg_adj W))))).
  { assert (fits_int (Z.of_nat (length (pg_adj W)))) by (unfold fits_int, int_min; lia).
    destruct depth as [z|]; cbn; [destruct (Z.eqb z 0)|]; auto. }
  assert (D2 : fits_int (or_default step 10) /\ (or_default step 10 < int_max)%Z).
  { assert (fits_int 10 /\ (10 < int_max)%Z) by (unfold fits_int, int_min, int_max; lia).
    destruct step as [z|]; cbn; [destruct (Z.eqb z 0)|]; auto. }
  destruct D2 as (D2 & D3).
  destruct (run_path_collapse W G c p n C P HE U NI HF HS Hn HC HP HN tb HT root m t quota
    (match cp with Some b => b | None => false end) _ _ M T FQ D1 D2 D3) as (t' & E & R).
  exists t'. split; [|exact R]. unfold run_heuristic, run_heuristic_tour. rewrite ST. cbn [bind].
  destruct AL as [-> | ->]; rewrite E; reflexivity.
Qed.
Print Assumptions C56_path_extension_collapse.

(** The extension & collapse algorithms: the result is a closed tour at the root, and it collects
    the quota if the tour [t1] of extension_unitary_gain does. *)
Theorem C56_extension_collapse : forall W G c p n C P tb set_order,
  ge G = py_edges W -> undirected (pg_adj W) -> no_isolated (pg_adj W) ->
  attributes_fit (pg_cost W) (pg_prize W) -> same_graph (pg_adj W) (pg_cost W) (pg_prize W) G c p ->
  vertex_count (ge G) n -> costs_within G c 0 C -> prizes_within G p 0 P -> small_numbers n C P -> good_pick tb ->
  forall root quota algorithm cost_map paths_map collapse_paths depth step t z,
  algorithm = BfsExtensionCollapse \/ algorithm = SuurballesExtensionCollapse ->
  heuristic_start set_order W quota root algorithm cost_map paths_map = Ok t ->
  closed_tour G root 2 t -> tour_prize p t z -> fits_int quota ->
  exists t1 z1 t', py_extension_unitary_gain W t = Ok t1 /\ closed_tour G root 2 t1 /\ tour_prize p t1 z1 /\ (z <= z1)%Z /\
    run_heuristic tb set_order W quota root algorithm cost_map paths_map collapse_paths depth step =
      Ok (edge_list_from_walk t') /\
    closed_tour G root 2 t' /\
    ((quota <= z1)%Z -> exists z', tour_prize p t' z' /\ (quota <= z')%Z) /\
    ((z1 < quota)%Z -> same_cycle t1 t').
Proof.
  intros W G c p n C P tb so HE U NI HF HS Hn HC HP HN HT root quota alg cm pm cp depth step t z AL ST T TP FQ.
  destruct (run_until W G c p n C P HE U NI HF HS Hn HC HP HN root t quota T FQ) as (t0 & E0 & _).
  destruct (run_gain_collapse W G c p n C P HE U NI HF HS Hn HC HP HN tb HT root t z quota T TP FQ)
    as (t1 & z1 & t' & E1 & T1 & TP1 & L1 & E2 & T2 & R).
  exists t1, z1, t'. split; [exact E1|]. split; [exact T1|]. split; [exact TP1|]. split; [exact L1|].
  split; [|split; [exact T2|exact R]].
  unfold run_heuristic, run_heuristic_tour. rewrite ST. cbn [bind].
  destruct AL as [-> | ->]; rewrite E0; cbn [bind]; rewrite E2; reflexivity.
Qed.
Print Assumptions C56_extension_collapse.

(** The breadth-first algorithms do start from a closed tour at the root, if there is any. *)
Theorem C56_bfs_start : forall W G c p set_order root quota algorithm cost_map paths_map,
  undirected (pg_adj W) -> same_graph (pg_adj W) (pg_cost W) (pg_prize W) G c p ->
  (forall l, Permutation (set_order l) l) -> vertex (pg_adj W) root ->
  algorithm = BfsPathExtensionCollapse \/ algorithm = BfsExtensionCollapse ->
  exists t, heuristic_start set_order W quota root algorithm cost_map paths_map = Ok t /\
    (t = [] /\ (forall t', ~ cycle_at (adj (pg_adj W)) root t') \/ closed_tour G root 2 t).
Proof.
  intros W G c p so root quota alg cm pm U HS PO V AL.
  destruct (find_cycle_ok so (pg_adj W) root PO U V) as (t & E & R). exists t. split.
  - destruct AL as [-> | ->]; exact E.
  - destruct R as [R|R]; [left; exact R|right]. eapply cycle_closed; eauto.
Qed.
Print Assumptions C56_bfs_start.

(** If there is no cycle through the root, the breadth-first algorithms pass an empty tour to the
    C++ code, which takes its front: undefined behaviour. *)
Definition wrap_path : pygraph := mkPy [(10, [20]); (20, [10])] (attrs_of [(10,20,2%Z)]) (dget [(10,1%Z);(20,1%Z)]).

Theorem C56_no_cycle_refuted : exists W root quota, undirected (pg_adj W) /\ no_isolated (pg_adj W) /\
  vertex (pg_adj W) root /\ forall algorithm,
  algorithm = BfsPathExtensionCollapse \/ algorithm = BfsExtensionCollapse ->
  run_heuristic pick_first (fun l => l) W quota root algorithm [] [] None None None = UB EmptyList.
Proof.
  exists wrap_path, 10, 1%Z. split; [apply undirectedb_ok; vm_compute; reflexivity|].
  split; [apply no_isolatedb; vm_compute; reflexivity|]. split; [cbn; auto|].
  intros alg [-> | ->]; vm_compute; reflexivity.
Qed.
Print Assumptions C56_no_cycle_refuted.

Example C56_case : heuristic_start (fun l => l) wrap_W 14 10 BfsPathExtensionCollapse [] [] = Ok [10;20;30;10] /\
  closed_tour wrap_G 10 2 [10;20;30;10] /\ tour_prize wrap_p [10;20;30;10] 3 /\
  run_heuristic pick_first (fun l => l) wrap_W 14 10 BfsPathExtensionCollapse [] [] None (Some 2%Z) (Some 1%Z) =
    Ok [(10,40);(40,20);(20,50);(50,30);(30,10)] /\
  run_heuristic pick_first (fun l => l) wrap_W 3 10 BfsExtensionCollapse [] [] None None None =
    Ok [(10,20);(20,40);(40,10)].
Proof. split; [vm_compute; reflexivity|]. split; [check|]. split; [check|]. vm_compute. auto. Qed.

(** The tour of extension_until_prize_feasible is dropped (run_algorithm.py:104): although it
    collects the quota, the heuristic returns a tour that does not. *)
Theorem C56_extension_dropped_refuted : exists W G c p root quota t t1 z1 t' z',
  same_graph (pg_adj W) (pg_cost W) (pg_prize W) G c p /\
  heuristic_start (fun l => l) W quota root BfsExtensionCollapse [] [] = Ok t /\
  py_extension_until W t quota = Ok t1 /\ closed_tour G root 2 t1 /\ tour_prize p t1 z1 /\ (quota <= z1)%Z /\
  run_heuristic pick_first (fun l => l) W quota root BfsExtensionCollapse [] [] None None None =
    Ok (edge_list_from_walk t') /\
  closed_tour G root 2 t' /\ tour_prize p t' z' /\ (z' < quota)%Z.
Proof.
  exists wrap_W, wrap_G, wrap_c, wrap_p, 10, 14%Z, [10;20;30;10], [10;40;20;50;30;10], 14%Z, [10;20;30;10], 3%Z.
  split; [apply wrap_ok|]. split; [vm_compute; reflexivity|]. split; [vm_compute; reflexivity|]. split; [check|].
  split; [check|]. split; [lia|]. split; [vm_compute; reflexivity|]. split; [check|]. split; [check|lia].
Qed.
Print Assumptions C56_extension_dropped_refuted.

(** A heuristic vial ignores the option collapse_paths (run_algorithm.py:181-191); as starting
    heuristic of an exact vial it has an effect. *)
Definition collapse_W : pygraph := mkPy
  [(1, [2;5]); (2, [1;3;6]); (3, [2;4]); (4, [3;5]); (5, [4;1;7]); (6, [2;7]); (7, [6;5])]
  (attrs_of [(1,2,1%Z);(2,3,9%Z);(3,4,9%Z);(4,5,9%Z);(5,1,1%Z);(2,6,1%Z);(6,7,1%Z);(7,5,1%Z)])
  (dget [(1,1%Z);(2,5%Z);(3,3%Z);(4,3%Z);(5,4%Z);(6,1%Z);(7,1%Z)]).

Theorem C56_collapse_option_ignored_refuted : exists W root quota mp t1 t2,
  mp_collapse_paths mp = Some true /\
  run_heuristic_vial pick_first (fun l => l) W quota root mp [] [] = Ok t1 /\
  run_heuristic_exact pick_first (fun l => l) W quota root mp [] [] = Ok t2 /\ t1 <> t2.
Proof.
  exists collapse_W, 1, 11%Z, (mkParams BfsPathExtensionCollapse (Some true) None None),
    [(1,2);(2,3);(3,4);(4,5);(5,1)], [(1,2);(2,6);(6,7);(7,5);(5,1)].
  split; [reflexivity|]. split; [vm_compute; reflexivity|]. split; [vm_compute; reflexivity|discriminate].
Qed.
Print Assumptions C56_collapse_option_ignored_refuted.

Theorem C56_collapse_option_ignored : forall tb set_order W quota root mp b cost_map paths_map,
  run_heuristic_vial tb set_order W quota root mp cost_map paths_map =
  run_heuristic_vial tb set_order W quota root
    (mkParams (mp_algorithm mp) b (mp_path_depth_limit mp) (mp_step_size mp)) cost_map paths_map.
Proof. reflexivity. Qed.
Print Assumptions C56_collapse_option_ignored.

(** The algorithm "extension" counts as a heuristic (model_params.py:52) but is not implemented. *)
Theorem C56_extension_not_implemented_refuted : forall tb set_order W quota root cost_map paths_map cp d s,
  run_heuristic tb set_order W quota root Extension cost_map paths_map cp d s = Throw NotImplementedErrorPy.
Proof. reflexivity. Qed.
Print Assumptions C56_extension_not_implemented_refuted.
