(** * Properties_RunAlg: the theorems for C61 (running the algorithm of a vial,
    pctsp/lab/run_algorithm.py and pctsp/algorithms/algorithms.py) *)
From Coq Require Import Lia Permutation.
From Verif Require Import Base Graph Spec Spec_Cycle Spec_Cover Spec_Flow Spec_Python Spec_PyWrap Spec_Rename Spec_ILP Spec_Solve Spec_Suurballe
  M_Walk M_Graph M_Dijkstra M_Solution M_ILP M_Subtour M_CycleCover M_CostCover M_MaxFlow M_Solve M_Python M_PyCycle M_PyWrap M_Suurballe M_DisjointMap
  Spec_Split M_Dataset Spec_Dataset M_RunAlg Spec_RunAlg.
From Verif Require Import P_Base P_Dijkstra P_Check P_CheckILP P_ILP P_Model P_Solve P_SolveBind P_Python P_PyWrap P_Suurballe P_Split P_SplitMap P_Dataset P_RunAlg.
From Verif Require Import Properties_Python Properties_PyWrap Properties_Solve Properties_Split.
Open Scope nat_scope.

(** Whatever the algorithm returned and whatever tspwplib does: the objective of a result is the
    cost of its edges and the prize that of its vertices, each counted once. *)
Theorem C61_result : forall L tb so mf N depth D s dist paths W G c p quota root mp entries cbs sols x,
  ge G = py_edges W -> same_graph (pg_adj W) (pg_cost W) (pg_prize W) G c p -> undirected (pg_adj W) ->
  run_algorithm L tb so mf N depth D s dist paths W quota root mp entries cbs sols = Ok x ->
  list_cost G c (r_edges x) (r_objective x) /\ list_prize p (r_edges x) (r_prize x).
Proof.
  intros L tb so mf N depth D s dist paths W G c p quota root mp entries cbs sols x HE SG U H. unfold run_algorithm in H.
  apply bind_ok in H. destruct H as ((cm & pm) & _ & H). apply bind_ok in H. destruct H as (es & _ & H).
  eapply make_result_sound; eauto.
Qed.
Print Assumptions C61_result.

(** An exact vial. SCIP may be stopped at any time: the result is a simple tour through the
    root with its cost and a prize of at least the quota, or it is empty and SCIP had no
    solution. If SCIP finished, the objective is the least cost of a feasible tour, or the
    result is empty and there is no feasible tour. With cost_cover_disjoint_paths this needs
    that the entry of the root in the cost map is not above the cost of a tour. *)
Theorem C61_exact : forall L tb so mf W G c p n C P vt vh D N root depth dist paths cm pm quota mp he,
  instance W G c p n C P -> (0 <= C)%Z -> (2 * (Z.of_nat n * C) < int_max)%Z -> (Z.of_nat n * P <= int_max)%Z ->
  (Z.of_nat (length (ge G) + n) <= 1000000000)%Z -> (- int_max <= quota <= int_max)%Z ->
  good_pick tb -> (forall d s t, length (snd (mf d s t)) = length (n_arcs d)) ->
  maps_call W G c vt vh D N root depth dist paths cm pm -> lab_ok L W G p quota root ->
  is_heuristic mp = false -> is_exact mp = true -> options_given mp ->
  (mp_cc_disjoint mp = Some true -> forall t z x, tour_from G root t -> any_cost G c t z -> entry cm root x -> (x <= z)%Z) ->
  (mp_cc_shortest mp = Some true -> forall v, vertex (pg_adj W) v -> exists w, is_walk G w /\ leads root v w) ->
  starting_edges L tb so W quota root mp cm pm = Ok he ->
  exists a bm m st q r, solve_pctsp_args L W he quota root mp cm = Ok a /\
    py_solve_start tb (sa_flags a) (py_edges W) (sa_heur a) (sa_cost a) (sa_prize a) (sa_quota a) root (sa_dist a)
      = Ok (bm, m, st, q, r) /\
    forall entries cbs sols, var_entries (i_graph m) entries ->
      scip_run m (accepted (sa_flags a) (i_graph m) q quota r entries) cbs sols ->
      exists st' out x,
        py_solve tb (sa_flags a) mf (py_edges W) (sa_heur a) (sa_cost a) (sa_prize a) (sa_quota a) root (sa_dist a)
          entries cbs sols = Ok (st', out) /\
        run_algorithm L tb so mf N depth D (vh root) dist paths W quota root mp entries cbs sols = Ok x /\
        ((sols = [] /\ empty_result (r_edges x) (r_objective x) (r_prize x)) \/
         tour_result G c p root (r_edges x) (r_objective x) (r_prize x) /\ (quota <= r_prize x)%Z) /\
        (scip_finished m (accepted (sa_flags a) (i_graph m) q quota r entries) (bc_rows st) (bc_rows st') sols ->
         tour_result G c p root (r_edges x) (r_objective x) (r_prize x) /\ (quota <= r_prize x)%Z /\
           (forall t z, feasible_tour G c p quota root t z -> (r_objective x <= z)%Z) \/
         empty_result (r_edges x) (r_objective x) (r_prize x) /\ forall t z, ~ feasible_tour G c p quota root t z).
Proof.
  intros L tb so mf W G c p n C P vt vh D N root depth dist paths cm pm quota mp he
    [HE U NI AG HF SG Hn HC HP] C0 NC NP SIZE FQ HT HM (SC & DEP & EM) LO NH EX (O1 & O2 & O3 & O4 & O5 & O6) CD CS ST.
  eapply exact_run; eauto.
Qed.
Print Assumptions C61_exact.

(** A heuristic vial whose heuristic returns the edges of the walk [t], nothing or a tour from the
    root: the result is that tour with its cost and prize. *)
Theorem C61_heuristic : forall L tb so mf W G c p n C P vt vh D N root depth dist paths cm pm quota mp t entries cbs sols,
  instance W G c p n C P -> maps_call W G c vt vh D N root depth dist paths cm pm -> lab_ok L W G p quota root ->
  is_heuristic mp = true ->
  run_heuristic_vial tb so W quota root (mp_heur mp) cm pm = Ok (edge_list_from_walk t) -> t = [] \/ tour_from G root t ->
  exists x, run_algorithm L tb so mf N depth D (vh root) dist paths W quota root mp entries cbs sols = Ok x /\
    ((t = [] /\ empty_result (r_edges x) (r_objective x) (r_prize x)) \/
     tour_from G root t /\ tour_result G c p root (r_edges x) (r_objective x) (r_prize x) /\
       walk_cost G c t (r_objective x) /\ tour_prize p t (r_prize x)).
Proof. exact heuristic_run. Qed.
Print Assumptions C61_heuristic.

(** The algorithm suurballes_heuristic, whole: an empty result or a tour from the root that
    collects the quota, the cheapest of those along a pair of disjoint paths. *)
Theorem C61_suurballes_heuristic : forall L tb so mf W G c p n C P vt vh D N root depth dist paths cm pm quota mp entries cbs sols,
  instance W G c p n C P -> maps_call W G c vt vh D N root depth dist paths cm pm -> lab_ok L W G p quota root ->
  is_heuristic mp = true -> mp_algorithm (mp_heur mp) = SuurballesHeuristic -> cm <> [] ->
  exists x, run_algorithm L tb so mf N depth D (vh root) dist paths W quota root mp entries cbs sols = Ok x /\
    ((empty_result (r_edges x) (r_objective x) (r_prize x) /\
      forall v t z, feasible_start (get_node_attributes W) quota cm pm v t z -> (py_maxsize <= z)%Z) \/
     tour_result G c p root (r_edges x) (r_objective x) (r_prize x) /\ (quota <= r_prize x)%Z /\
      forall v t z, feasible_start (get_node_attributes W) quota cm pm v t z -> (r_objective x <= z)%Z).
Proof. exact suurballes_run. Qed.
Print Assumptions C61_suurballes_heuristic.

(** The breadth-first path extension & collapse, whole, if there is a tour through the root: an
    empty result or a tour through the root that collects the quota. *)
Theorem C61_bfs_path_extension : forall L tb so mf W G c p n C P vt vh D N root depth dist paths cm pm quota mp t0 entries cbs sols,
  instance W G c p n C P -> maps_call W G c vt vh D N root depth dist paths cm pm -> lab_ok L W G p quota root ->
  small_numbers n C P -> good_pick tb -> (forall l, Permutation (so l) l) -> fits_int quota ->
  is_heuristic mp = true -> mp_algorithm (mp_heur mp) = BfsPathExtensionCollapse ->
  (forall z, mp_path_depth_limit (mp_heur mp) = Some z -> fits_int z) ->
  (forall z, mp_step_size (mp_heur mp) = Some z -> fits_int z /\ (z < int_max)%Z) ->
  tour_from G root t0 ->
  exists x, run_algorithm L tb so mf N depth D (vh root) dist paths W quota root mp entries cbs sols = Ok x /\
    (empty_result (r_edges x) (r_objective x) (r_prize x) \/
     tour_result G c p root (r_edges x) (r_objective x) (r_prize x) /\ (quota <= r_prize x)%Z).
Proof. exact bfs_path_run. Qed.
Print Assumptions C61_bfs_path_extension.

(** The breadth-first extension & collapse, whole: always a tour through the root. *)
Theorem C61_bfs_extension : forall L tb so mf W G c p n C P vt vh D N root depth dist paths cm pm quota mp t0 entries cbs sols,
  instance W G c p n C P -> maps_call W G c vt vh D N root depth dist paths cm pm -> lab_ok L W G p quota root ->
  small_numbers n C P -> good_pick tb -> (forall l, Permutation (so l) l) -> fits_int quota ->
  is_heuristic mp = true -> mp_algorithm (mp_heur mp) = BfsExtensionCollapse ->
  tour_from G root t0 ->
  exists x, run_algorithm L tb so mf N depth D (vh root) dist paths W quota root mp entries cbs sols = Ok x /\
    tour_result G c p root (r_edges x) (r_objective x) (r_prize x).
Proof. exact bfs_extension_run. Qed.
Print Assumptions C61_bfs_extension.

(** A vial that is neither a heuristic nor exact (a relaxation) is not implemented. *)
Theorem C61_not_implemented : forall L tb so mf N depth D s dist paths W quota root mp entries cbs sols cm pm,
  disjoint_maps N depth D s dist paths = Ok (cm, pm) -> is_heuristic mp = false -> is_exact mp = false ->
  run_algorithm L tb so mf N depth D s dist paths W quota root mp entries cbs sols = Throw NotImplementedErrorPy.
Proof. intros. unfold run_algorithm. rewrite H. cbn [bind]. rewrite H0, H1. reflexivity. Qed.
Print Assumptions C61_not_implemented.

(** Without one of the numbers that are None by default (vial/model_params.py:79-92) an exact vial
    raises TypeError. *)
Theorem C61_missing_option : forall L W he quota root mp cm cd pd dd,
  py_dicts W = Ok (cd, pd) -> to_map Nat.ltb cm = Ok dd ->
  mp_branching_max_depth mp = None \/ mp_branching_strategy mp = None \/ mp_tailing_off mp = None \/
  mp_sepafreq mp = None \/ mp_lp_gap mp = None \/ mp_time_limit mp = None ->
  solve_pctsp_args L W he quota root mp cm = Throw TypeErrorPy.
Proof. exact missing_option. Qed.
Print Assumptions C61_missing_option.

(** ** cases *)

(** The triangle 0, 1, 2 with unit costs and prizes. *)
Definition tri_W : pygraph := mkPy [(0, [1;2]); (1, [0;2]); (2, [0;1])]
  (attrs_of [(0,1,1%Z);(0,2,1%Z);(1,2,1%Z)]) (dget [(0,1%Z);(1,1%Z);(2,1%Z)]).
Definition tri_G := view_graph 3 tri_W.
Definition tri_lab : lab_lib := mkLab
  (fun _ _ _ es => match es with [(0, 1); (1, 2); (2, 0)] | [(0, 2); (2, 1); (1, 0)] => true | _ => false end)
  (fun es => if Nat.eqb (length es) 3 then Some [(0,1);(1,2);(2,0)] else None).
Definition tri_mp (dp : bool) (start : option algorithm_name) : model_params :=
  mkModel true false (mkParams SolvePctsp None None None) start (Some dp) (Some false) (Some true) (Some true)
    (Some (-1)%Z) (Some 0%Z) (Some (-1)%Z) (Some 1%Z) (Some 1%Z) (Some 14400%Z).
Definition tri_run dp start := run_algorithm tri_lab pick_first (fun l => l) no_flow (shifted_names 10) 100 tri1_D 0
  tri1_dist tri1_paths tri_W 3 0 (tri_mp dp start).
Definition tri_cm : list (nat * Z) := [(1, 3%Z); (2, 3%Z); (0, 4%Z)].
Definition tri_pm : list (nat * (list nat * list nat)) :=
  [(1, ([0;2;1], [0;1])); (2, ([0;1;2], [0;2])); (0, ([0;2;0], [0;1;0]))].

Lemma tri_instance : instance tri_W tri_G [1;1;1]%Z [1;1;1]%Z 3 1 1.
Proof.
  assert (U : undirected (pg_adj tri_W)) by (apply undirectedb_ok; vm_compute; reflexivity).
  split.
  - reflexivity.
  - exact U.
  - apply no_isolatedb; vm_compute; reflexivity.
  - apply attributes_check; [exact U|vm_compute; reflexivity..].
  - split; intros; [apply attrs_range|apply dget_range]; try (unfold int_min, int_max; lia); vm_compute; reflexivity.
  - apply (view_ok tri_W 3 U). intros v V. cbn in V. lia.
  - exists [0;1;2]; split; [repeat constructor; cbn; lia|]; split; [intros v; vm_compute; tauto|reflexivity].
  - check.
  - check.
Qed.

Lemma tri_maps : maps_call tri_W tri_G [1;1;1]%Z (fun v => 10 + v) (fun v => v) tri1_D (shifted_names 10) 0 100 tri1_dist tri1_paths tri_cm tri_pm.
Proof.
  split; [apply call_check; [cbn; lia|cbn; tauto|vm_compute; reflexivity|vm_compute; reflexivity]|].
  split; [apply paths_withinb_ok; vm_compute; reflexivity|]. vm_compute. reflexivity.
Qed.

Lemma tri_trail r t fs : tour_from tri_G r t -> trail tri_G t fs -> Permutation fs [0;1;2].
Proof.
  intros T TR. pose proof T as (vs & -> & ND & LV & _ & F).
  assert (H3 : length (r :: vs) <= 3).
  { apply (NoDup_incl_length ND (l' := [0;1;2])). intros x Hx. rewrite Forall_forall in F.
    assert (x < 3) by (apply F; cbn in *; rewrite in_app_iff; tauto). cbn. lia. }
  assert (LF : length fs = 3).
  { apply P_Cycle.trail_length in TR. cbn [length] in TR, H3. rewrite app_length in TR. cbn [length] in TR. lia. }
  apply NoDup_Permutation_bis.
  - apply (P_Cycle.trail_nodup_big tri_G r vs fs ND LV TR).
  - rewrite LF. cbn. lia.
  - intros e I. pose proof (trail_lt _ _ _ TR) as TL. rewrite Forall_forall in TL. apply TL in I. cbn in I. cbn. lia.
Qed.

Lemma tri_lab_ok : lab_ok tri_lab tri_W tri_G [1;1;1]%Z 3 0.
Proof.
  split.
  - intros es H. cbn [tri_lab yes_instance] in H.
    assert (E : es = [(0,1);(1,2);(2,0)] \/ es = [(0,2);(2,1);(1,0)]).
    { repeat match goal with
        | K : match ?v with _ => _ end = true |- _ => is_var v; destruct v; cbv beta iota in K; try discriminate K
      end; auto. }
    destruct E as [-> | ->].
    + exists [0;1;2;0]. split; [|exists 3%Z; split; [check|lia]]. split; [check|]. exists [0;2;1], [0;2;1]. split; [checkI|]. split; [reflexivity|].
      repeat (constructor; [apply joinb_spec; vm_compute; reflexivity|]). constructor.
    + exists [0;2;1;0]. split; [|exists 3%Z; split; [check|lia]]. split; [check|]. exists [1;2;0], [1;2;0]. split; [checkI|]. split; [reflexivity|].
      repeat (constructor; [apply joinb_spec; vm_compute; reflexivity|]). constructor.
  - intros es t (T & fs & fs' & TR & PM & F). pose proof (tri_trail _ _ _ T TR) as PT.
    exists [(0,1);(1,2);(2,0)], 0, [0;1;2;0]. split.
    + cbn [tri_lab order_edges]. replace (length es) with 3; [reflexivity|]. rewrite <- (Forall2_length_eq _ _ _ F), (Permutation_length PM), (Permutation_length PT). reflexivity.
    + split; [repeat constructor|]. split; [check|]. exists fs, [0;2;1]. split; [checkI|]. split; [|exact F].
      rewrite PM, PT. apply perm_skip. apply perm_swap.
  - left. reflexivity.
Qed.

Lemma tri_cost_G t z : tour_from tri_G 0 t -> any_cost tri_G [1;1;1]%Z t z -> (3 <= z)%Z.
Proof.
  intros T Hz. destruct (any_cost_trail _ _ _ _ Hz) as (es & TR & ->). rewrite (P_ILP.zsum_perm _ _ _ (tri_trail _ _ _ T TR)). cbn. lia.
Qed.

(** A vial that meets all hypotheses, with Suurballe's heuristic as start, and its result after a
    run of SCIP that ends with the starting tour. *)
Example C61_case : instance tri_W tri_G [1;1;1]%Z [1;1;1]%Z 3 1 1 /\
  maps_call tri_W tri_G [1;1;1]%Z (fun v => 10 + v) (fun v => v) tri1_D (shifted_names 10) 0 100 tri1_dist tri1_paths tri_cm tri_pm /\
  lab_ok tri_lab tri_W tri_G [1;1;1]%Z 3 0 /\ options_given (tri_mp false (Some SuurballesHeuristic)) /\
  starting_edges tri_lab pick_first (fun l => l) tri_W 3 0 (tri_mp false (Some SuurballesHeuristic)) tri_cm tri_pm = Ok [(0,2);(2,1);(1,0)] /\
  exists a bm m st q r h, solve_pctsp_args tri_lab tri_W [(0,2);(2,1);(1,0)] 3 0 (tri_mp false (Some SuurballesHeuristic)) tri_cm = Ok a /\
    py_solve_start pick_first (sa_flags a) (py_edges tri_W) (sa_heur a) (sa_cost a) (sa_prize a) (sa_quota a) 0 (sa_dist a)
      = Ok (bm, m, st, q, r) /\ i_heur m = Some h /\
    let entries := map (fun e => (e, e)) (seq 0 6) in
    var_entries (i_graph m) entries /\
    scip_run m (accepted (sa_flags a) (i_graph m) q 3 r entries) [BestSolFound 3 1] [h] /\
    tri_run false (Some SuurballesHeuristic) entries [BestSolFound 3 1] [h] = Ok (mkResult 3 3 [(0,1);(1,2);(2,0)]).
Proof.
  split; [exact tri_instance|]. split; [exact tri_maps|]. split; [exact tri_lab_ok|].
  split. { unfold options_given, fits_int, int_min, int_max. cbn. repeat (split; [eexists; split; [reflexivity|lia]|]). split; discriminate. }
  split; [vm_compute; reflexivity|].
  destruct (solve_pctsp_args tri_lab tri_W [(0,2);(2,1);(1,0)] 3 0 (tri_mp false (Some SuurballesHeuristic)) tri_cm) as [a|e|u|] eqn:EA;
    [|exfalso; vm_compute in EA; discriminate..].
  vm_compute in EA. inversion EA as [Ea]. clear EA.
  destruct (py_solve_start pick_first (sa_flags a) (py_edges tri_W) (sa_heur a) (sa_cost a) (sa_prize a) (sa_quota a) 0 (sa_dist a)) as [[[[[bm m] st] q] r]|e|u|] eqn:E;
    rewrite <- Ea in E; [|exfalso; vm_compute in E; discriminate..].
  vm_compute in E. inversion E as [[Eb Em Est Eq Er]]. clear E. clear Ea.
  do 7 eexists. split; [reflexivity|]. split; [reflexivity|]. split; [reflexivity|]. cbn zeta.
  split; [cbn; apply Permutation_refl|].
  match goal with |- scip_run ?m (accepted _ _ _ _ _ _) _ [?h] /\ _ => set (M := m); set (H := h) end.
  split.
  - assert (HA : accepted (mkFlags false false false true true) (i_graph M) [1;1;1]%Z 3 0 (map (fun e => (e, e)) (seq 0 6)) H).
    { split; [|split; [vm_compute; reflexivity|discriminate]].
      split; [reflexivity|]. intros e He. change (e < 6) in He.
      destruct e as [|[|[|[|[|[|e]]]]]]; try (right; reflexivity); lia. }
    assert (HR : Forall (row_sat H) (i_cons M)).
    { repeat (constructor; [split; intros x Hx; inversion Hx; subst; vm_compute; discriminate|]). constructor. }
    split.
    + constructor; auto.
    + intros n d [Hc|[]]. inversion Hc; subst. split; [lia|]. exists H, H. split; auto. split; auto.
      split; [reflexivity|]. split; [reflexivity|]. unfold no_worse. lia.
    + intros lib s [Hc|[]]. discriminate.
  - vm_compute. reflexivity.
Qed.

(** With cost_cover_disjoint_paths the same vial returns an empty result although SCIP finished:
    the row for the root, whose entry is 4, is violated by every tour. *)
Theorem C61_disjoint_paths_cut_refuted : exists L W G c p n C P vt vh D N root depth dist paths cm pm quota mp he t z a bm m st q r,
  instance W G c p n C P /\ maps_call W G c vt vh D N root depth dist paths cm pm /\ lab_ok L W G p quota root /\
  is_heuristic mp = false /\ is_exact mp = true /\ options_given mp /\ mp_cc_shortest mp = Some false /\
  starting_edges L pick_first (fun l => l) W quota root mp cm pm = Ok he /\
  optimal_tour G c p quota root t z /\
  solve_pctsp_args L W he quota root mp cm = Ok a /\
  py_solve_start pick_first (sa_flags a) (py_edges W) (sa_heur a) (sa_cost a) (sa_prize a) (sa_quota a) root (sa_dist a)
    = Ok (bm, m, st, q, r) /\
  let entries := map (fun e => (e, e)) (seq 0 (length (ge (i_graph m)))) in
  let acc := accepted (sa_flags a) (i_graph m) q quota r entries in
  scip_run m acc [] [] /\ scip_finished m acc (bc_rows st) (bc_rows st) [] /\
  run_algorithm L pick_first (fun l => l) no_flow N depth D (vh root) dist paths W quota root mp entries [] []
    = Ok (mkResult 0 0 []).
Proof.
  destruct (solve_pctsp_args tri_lab tri_W [(0,2);(2,1);(1,0)] 3 0 (tri_mp true (Some SuurballesHeuristic)) tri_cm) as [a|e|u|] eqn:EA;
    [|exfalso; vm_compute in EA; discriminate..].
  destruct (py_solve_start pick_first (sa_flags a) (py_edges tri_W) (sa_heur a) (sa_cost a) (sa_prize a) (sa_quota a) 0 (sa_dist a)) as [[[[[bm m] st] q] r]|e|u|] eqn:E;
    pose proof EA as EA'; vm_compute in EA'; inversion EA' as [Ea]; rewrite <- Ea in E; [|exfalso; vm_compute in E; discriminate..].
  exists tri_lab, tri_W, tri_G, [1;1;1]%Z, [1;1;1]%Z, 3, 1%Z, 1%Z, (fun v => 10 + v), (fun v => v), tri1_D, (shifted_names 10), 0, 100, tri1_dist, tri1_paths, tri_cm, tri_pm.
  exists 3%Z, (tri_mp true (Some SuurballesHeuristic)), [(0,2);(2,1);(1,0)], [0;1;2;0], 3%Z, a, bm, m, st, q, r.
  split; [exact tri_instance|]. split; [exact tri_maps|]. split; [exact tri_lab_ok|]. split; [reflexivity|]. split; [reflexivity|].
  split. { unfold options_given, fits_int, int_min, int_max. cbn. repeat (split; [eexists; split; [reflexivity|lia]|]). split; discriminate. }
  split; [reflexivity|]. split; [vm_compute; reflexivity|]. split.
  { split.
    - split; [check|]. split; [exists 3%Z; split; [check|lia]|check].
    - intros t' z' (T & _ & W). apply (tri_cost_G t' z' T). apply P_Collapse.walk_cost_any_cost; [|exact W].
      destruct T as (vs & -> & _). discriminate. }
  split; [exact EA|]. split; [rewrite <- Ea; exact E|]. rewrite <- Ea. clear EA EA' Ea. vm_compute in E. inversion E as [[Eb Em Est Eq Er]]. clear E. cbn zeta.
  match goal with |- scip_run ?mm (accepted ?f ?g ?p ?q ?r ?en) _ _ /\ scip_finished _ _ (bc_rows ?s) _ _ /\ _ =>
    set (M := mm); set (S0 := s); set (A := accepted f g p q r en) end.
  assert (HN : forall s, A s -> Forall (row_sat s) (i_cons M ++ bc_rows S0) -> False).
  { intros s [[Hd _] _] Hs. cbn [M S0 i_cons bc_rows b_dp b_sp b_sec b_cc opt_rows ch_rows app] in Hs.
    repeat (apply Forall_cons_iff in Hs as [[?R1 ?R2] Hs]). clear Hs.
    repeat match goal with
      | K : forall a, l_lhs _ = Some a -> _ |- _ => cbn -[Z.mul Z.add Z.le] in K
      | K : forall b, l_rhs _ = Some b -> _ |- _ => cbn -[Z.mul Z.add Z.le] in K end.
    repeat match goal with
      | K : forall a, Some _ = Some a -> _ |- _ => specialize (K _ eq_refl)
      | K : forall a, None = Some a -> _ |- _ => clear K end.
    cbn -[Z.mul Z.add Z.le] in *. lia. }
  split; [|split].
  - split; [constructor| |]; intros ? ? [].
  - split; intros s; [intros _|]; intros HA Hs; destruct (HN s HA Hs).
  - vm_compute. reflexivity.
Qed.
Print Assumptions C61_disjoint_paths_cut_refuted.

Example C61_heuristic_case :
  run_algorithm tri_lab pick_first (fun l => l) no_flow (shifted_names 10) 100 tri1_D 0 tri1_dist tri1_paths tri_W 3 0
    (mkModel false true (mkParams SuurballesHeuristic None None None) None None None None None None None None None None None) [] [] []
    = Ok (mkResult 3 3 [(0,1);(1,2);(2,0)]) /\
  run_algorithm tri_lab pick_first (fun l => l) no_flow (shifted_names 10) 100 tri1_D 0 tri1_dist tri1_paths tri_W 3 0
    (mkModel false true (mkParams BfsPathExtensionCollapse None None None) None None None None None None None None None None None) [] [] []
    = Ok (mkResult 3 3 [(0,1);(1,2);(2,0)]) /\
  run_algorithm tri_lab pick_first (fun l => l) no_flow (shifted_names 10) 100 tri1_D 0 tri1_dist tri1_paths tri_W 3 0
    (mkModel false true (mkParams BfsExtensionCollapse None None None) None None None None None None None None None None None) [] [] []
    = Ok (mkResult 3 3 [(0,1);(1,2);(2,0)]) /\
  run_algorithm tri_lab pick_first (fun l => l) no_flow (shifted_names 10) 100 tri1_D 0 tri1_dist tri1_paths tri_W 4 0
    (mkModel false true (mkParams SuurballesHeuristic None None None) None None None None None None None None None None None) [] [] []
    = Ok (mkResult 0 0 []).
Proof. vm_compute. auto. Qed.

(** A vial without options, and one that is neither exact nor a heuristic. *)
Example C61_options_case :
  let mp := mkModel true false (mkParams SolvePctsp None None None) None (Some false) (Some false) (Some true) (Some true)
    None None None None None None in
  (exists cd pd dd, py_dicts tri_W = Ok (cd, pd) /\ to_map Nat.ltb tri_cm = Ok dd /\
    solve_pctsp_args tri_lab tri_W [] 3 0 mp tri_cm = Throw TypeErrorPy) /\
  run_algorithm tri_lab pick_first (fun l => l) no_flow (shifted_names 10) 100 tri1_D 0 tri1_dist tri1_paths tri_W 3 0
    (mkModel false false (mkParams SolvePctsp None None None) None None None None None None None None None None None) [] [] []
    = Throw NotImplementedErrorPy.
Proof.
  split; [|vm_compute; reflexivity]. eexists. eexists. eexists. split; [vm_compute; reflexivity|]. split; vm_compute; reflexivity.
Qed.
