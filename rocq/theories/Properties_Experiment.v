(** * Properties_Experiment: the result of a vial is right for the graph that was loaded (C77) *)
From Coq Require Import Lia Permutation String.
From Verif Require Import Base Graph Spec Spec_Python Spec_PyWrap Spec_Dataset Spec_RunAlg Spec_ILP Spec_Solve Spec_Cover Spec_Compare Spec_Load M_Dijkstra
  M_Solution M_ILP M_MaxFlow M_Solve M_Python M_PyWrap M_Suurballe M_DisjointMap M_RunAlg M_Compare M_Load M_Experiment Spec_Experiment
  P_Base P_Check P_Python P_Dijkstra P_PyWrap P_CompareRun P_Experiment P_Experiment2 P_Dataset P_RunAlg P_CheckILP P_Suurballe P_Split P_Solve P_SplitMap
  Properties_Python Properties_PyWrap Properties_Solve Properties_Split Properties_RunAlg.
Open Scope nat_scope.

(** ** Exact vials *)

(** An exact vial with any options, on any graph with a tour through the root. With cost_cover_disjoint_paths this needs that the entry of
    the root in the cost map is not above the cost of a tour (see C61_disjoint_paths_cut_refuted). *)
Theorem C77_exact : forall component bicomps depth0 v W0 C P,
  let quota := dc_quota (fv_data v) in let root := dc_root (fv_data v) in let mp := fp_model (fv_params v) in
  priced_graph W0 C P -> sizes W0 C P -> fv_pre v = mkPre false false true false false -> blocks_of (pg_adj W0) (bicomps (pg_adj W0)) ->
  (exists t, cycle_at (adj (pg_adj W0)) root t) -> is_heuristic mp = false -> is_exact mp = true -> options_given mp ->
  exists W, preprocessed component bicomps depth0 v W0 W /\
  forall L tb so mf G c p vt vh D N depth dist paths cm pm he, run_on L tb so mf v W P G c p vt vh D N depth dist paths cm pm ->
    (mp_cc_disjoint mp = Some true -> forall t z y x, graph_tour W0 root t z y -> entry cm root x -> (x <= z)%Z) ->
    starting_edges L tb so W quota root mp cm pm = Ok he ->
    answered component bicomps depth0 L tb so mf N depth D (vh root) dist paths cm v W0 W he.
Proof.
  intros component bicomps depth0 v W0 C P quota root mp PW SZ EP BL T0 NH EX OG.
  destruct (vial_prepared component bicomps depth0 v W0 C P PW SZ EP BL T0) as (W & PP & H). exists W. split; [exact PP|].
  intros L tb so mf G c p vt vh D N depth dist paths cm pm he RO CD ST.
  destruct (H _ _ _ _ _ _ _ _ _ _ _ _ _ _ _ _ RO) as (IN & SN & S2 & S3 & S4 & _ & CON & AC & _ & _ & SA).
  destruct RO as (HE & SG & PR & MC & LO & HT & SO & HM & FQ). apply SA.
  refine (C61_exact L tb so mf W G c p _ C P vt vh D N root depth dist paths cm pm quota mp he IN _ S2 S3 S4 FQ HT HM MC LO NH EX OG _ _ ST).
  - apply SN.
  - intros E t z x T A I. destruct (AC t z T A) as (y & GT). exact (CD E t z y x GT I).
  - intros _. exact CON.
Qed.
Print Assumptions C77_exact.

(** The vials of the experiment baseline: nothing but the world around the run is assumed. *)
Theorem C77_baseline : forall F uuid d vs component bicomps depth0 v W0 C P,
  experiment_vials F uuid d Baseline = Ok vs -> In v vs ->
  let quota := dc_quota (fv_data v) in let root := dc_root (fv_data v) in let mp := fp_model (fv_params v) in
  priced_graph W0 C P -> sizes W0 C P -> blocks_of (pg_adj W0) (bicomps (pg_adj W0)) ->
  (exists t, cycle_at (adj (pg_adj W0)) root t) ->
  exists W, preprocessed component bicomps depth0 v W0 W /\
  forall L tb so mf G c p vt vh D N depth dist paths cm pm, run_on L tb so mf v W P G c p vt vh D N depth dist paths cm pm ->
    exists he, starting_edges L tb so W quota root mp cm pm = Ok he /\
      answered component bicomps depth0 L tb so mf N depth D (vh root) dist paths cm v W0 W he.
Proof.
  intros F uuid d vs component bicomps depth0 v W0 C P EV V quota root mp PW SZ BL T0.
  assert (EP : fv_pre v = mkPre false false true false false) by (eapply experiment_pre; eauto).
  destruct (vial_prepared component bicomps depth0 v W0 C P PW SZ EP BL T0) as (W & PP & H). exists W. split; [exact PP|].
  intros L tb so mf G c p vt vh D N depth dist paths cm pm RO.
  destruct (H _ _ _ _ _ _ _ _ _ _ _ _ _ _ _ _ RO) as (IN & SN & S2 & S3 & S4 & (t0 & T) & CON & AC & _ & _ & SA).
  destruct RO as (HE & SG & PR & MC & LO & HT & SO & HM & FQ).
  destruct (baseline_solved F uuid d vs v L tb so mf W G c p _ C P vt vh D N depth dist paths cm pm t0 EV V IN SN S2 S4 FQ HT SO HM MC LO T) as (he & E & S).
  exists he. split; [exact E|]. apply SA. exact S.
Qed.
Print Assumptions C77_baseline.

(** So are those of simple_branch_cut and the exact one of dryrun. *)
Theorem C77_simple_branch_cut : forall F uuid d e vs component bicomps depth0 v W0 C P,
  experiment_vials F uuid d e = Ok vs -> e = SimpleBranchCut \/ e = Dryrun -> In v vs -> is_exact (fp_model (fv_params v)) = true ->
  let quota := dc_quota (fv_data v) in let root := dc_root (fv_data v) in let mp := fp_model (fv_params v) in
  priced_graph W0 C P -> sizes W0 C P -> blocks_of (pg_adj W0) (bicomps (pg_adj W0)) ->
  (exists t, cycle_at (adj (pg_adj W0)) root t) ->
  exists W, preprocessed component bicomps depth0 v W0 W /\
  forall L tb so mf G c p vt vh D N depth dist paths cm pm, run_on L tb so mf v W P G c p vt vh D N depth dist paths cm pm ->
    starting_edges L tb so W quota root mp cm pm = Ok [] /\
    answered component bicomps depth0 L tb so mf N depth D (vh root) dist paths cm v W0 W [].
Proof.
  intros F uuid d e vs component bicomps depth0 v W0 C P EV EE V EX quota root mp PW SZ BL T0.
  assert (EP : fv_pre v = mkPre false false true false false) by (eapply experiment_pre; eauto).
  destruct (vial_prepared component bicomps depth0 v W0 C P PW SZ EP BL T0) as (W & PP & H). exists W. split; [exact PP|].
  intros L tb so mf G c p vt vh D N depth dist paths cm pm RO.
  destruct (H _ _ _ _ _ _ _ _ _ _ _ _ _ _ _ _ RO) as (IN & SN & S2 & S3 & S4 & _ & _ & _ & _ & _ & SA).
  destruct RO as (HE & SG & PR & MC & LO & HT & SO & HM & FQ).
  destruct (simple_solved F uuid d e vs v L tb so mf W G c p _ C P vt vh D N depth dist paths cm pm EV EE V EX IN (proj1 SN) S2 S3 S4 FQ HT HM MC LO) as (E & S).
  split; [exact E|]. apply SA. exact S.
Qed.
Print Assumptions C77_simple_branch_cut.

(** ** Heuristic vials *)

(** The result of a heuristic vial is a tour of the graph that was loaded; only that of bfs_extension_collapse may miss the quota, and only
    the other two may be empty. The lab gets its prize. *)
Theorem C77_heuristics : forall component bicomps depth0 v W0 C P,
  let quota := dc_quota (fv_data v) in let root := dc_root (fv_data v) in let mp := fp_model (fv_params v) in
  priced_graph W0 C P -> sizes W0 C P -> fv_pre v = mkPre false false true false false -> blocks_of (pg_adj W0) (bicomps (pg_adj W0)) ->
  (exists t, cycle_at (adj (pg_adj W0)) root t) -> is_heuristic mp = true ->
  (forall z, mp_path_depth_limit (mp_heur mp) = Some z -> fits_int z) ->
  (forall z, mp_step_size (mp_heur mp) = Some z -> fits_int z /\ (z < int_max)%Z) ->
  In (mp_algorithm (mp_heur mp)) [BfsExtensionCollapse; BfsPathExtensionCollapse; SuurballesHeuristic] ->
  exists W, preprocessed component bicomps depth0 v W0 W /\
  forall L tb so mf G c p vt vh D N depth dist paths cm pm, run_on L tb so mf v W P G c p vt vh D N depth dist paths cm pm -> cm <> [] ->
    forall entries cbs sols, let S := mkSur N depth D (vh root) dist paths entries cbs sols in
    exists x, run_vial L tb so mf S v W = Ok x /\
      run_loaded component bicomps depth0 (vial_algorithm L tb so mf (fun _ => S)) v W0 = Ok (r_prize x) /\
      (mp_algorithm (mp_heur mp) <> BfsExtensionCollapse /\ empty_result (r_edges x) (r_objective x) (r_prize x) \/
       graph_result W0 root x /\ (mp_algorithm (mp_heur mp) <> BfsExtensionCollapse -> (quota <= r_prize x)%Z)).
Proof.
  intros component bicomps depth0 v W0 C P quota root mp PW SZ EP BL T0 HE DL SS AL.
  destruct (vial_prepared component bicomps depth0 v W0 C P PW SZ EP BL T0) as (W & PP & H). exists W. split; [exact PP|].
  intros L tb so mf G c p vt vh D N depth dist paths cm pm RO NE entries cbs sols S.
  destruct (H _ _ _ _ _ _ _ _ _ _ _ _ _ _ _ _ RO) as (IN & SN & S2 & S3 & S4 & (t0 & T) & _ & _ & RS & RL & _).
  destruct RO as (GE & SG & PR & MC & LO & HT & SO & HM & FQ).
  assert (FI : fits_int quota) by (clear - FQ; unfold fits_int, int_min, int_max in *; fold quota in FQ; lia).
  destruct AL as [AL|[AL|[AL|[]]]].
  - destruct (C61_bfs_extension L tb so mf W G c p _ C P vt vh D N root depth dist paths cm pm quota mp t0 entries cbs sols IN MC LO SN HT SO FI HE (eq_sym AL) T) as (x & E & R).
    exists x. split; [exact E|]. split; [apply RL; exact E|]. right. split; [apply RS, R|]. intros K. exfalso. apply K. symmetry. exact AL.
  - destruct (C61_bfs_path_extension L tb so mf W G c p _ C P vt vh D N root depth dist paths cm pm quota mp t0 entries cbs sols IN MC LO SN HT SO FI HE (eq_sym AL) DL SS T) as (x & E & R).
    exists x. split; [exact E|]. split; [apply RL; exact E|]. rewrite <- AL. destruct R as [R|(R & Q)]; [left|right]; (split; [|auto]); [discriminate|apply RS, R].
  - destruct (C61_suurballes_heuristic L tb so mf W G c p _ C P vt vh D N root depth dist paths cm pm quota mp entries cbs sols IN MC LO HE (eq_sym AL) NE) as (x & E & R).
    exists x. split; [exact E|]. split; [apply RL; exact E|]. rewrite <- AL. destruct R as [(R & _)|(R & Q & _)]; [left|right]; (split; [|auto]); [discriminate|apply RS, R].
Qed.
Print Assumptions C77_heuristics.

(** ** Comparing vials *)

(** No result that collects the quota is better than that of an exact vial that finished, wherever its tour starts. *)
Theorem C77_exact_beats : forall W quota root x x', best_result W quota root x -> graph_result W root x' -> (quota <= r_prize x')%Z ->
  (r_objective x <= r_objective x')%Z.
Proof. exact best_beats. Qed.
Print Assumptions C77_exact_beats.

(** All exact vials of an instance that finished give the same objective, whatever their options. *)
Theorem C77_one_optimum : forall W quota root x x', best_result W quota root x -> best_result W quota root x' -> r_objective x = r_objective x'.
Proof.
  intros W quota root x x' B B'. pose proof (best_beats _ _ _ _ _ B (proj1 B') (proj1 (proj2 B'))).
  pose proof (best_beats _ _ _ _ _ B' (proj1 B) (proj1 (proj2 B))). lia.
Qed.
Print Assumptions C77_one_optimum.

(** If one of them finished with an empty result, no vial of the instance has a tour that collects the quota. *)
Theorem C77_empty : forall W quota root x, (forall t cost prize, graph_tour W root t cost prize -> (prize < quota)%Z) ->
  ~ (graph_result W root x /\ (quota <= r_prize x)%Z).
Proof.
  intros W quota root x H ((s & t & T & I & _) & Q). destruct (graph_rotate W s t _ _ root T I) as (t' & T'). specialize (H _ _ _ T'). lia.
Qed.
Print Assumptions C77_empty.

(** ** What loading gives *)

(** A graph from a file, with its weights as costs, is as the theorems above need it but for the range of its numbers. *)
Theorem C77_loaded : forall F R n pr d W pr', good_files F -> keeps_attributes F -> all_scored F -> load_vial F R n pr d = Ok (W, pr') ->
  dc_kappa d = None \/ dc_kappa d = Some 0%Z -> ~ In (dc_cost_function d) ["UNIFORM_RANDOM"; "MST"; "SEMI_MST"]%string ->
  undirected (pg_adj W) /\ attributes_given (pg_adj W) (pg_cost W) (pg_prize W) /\
  forall u v, adj (pg_adj W) u v -> pg_cost W u v = pg_cost W v u.
Proof. exact loaded_ok. Qed.
Print Assumptions C77_loaded.

(** ** A case *)

(** The triangle 0, 1, 2 with unit costs and prizes, and a vertex 3 that only 0 has an edge to. *)
Definition pend_W : pygraph := mkPy [(0, [1;2;3]); (1, [0;2]); (2, [0;1]); (3, [0])]
  (attrs_of [(0,1,1%Z);(0,2,1%Z);(1,2,1%Z);(0,3,1%Z)]) (dget [(0,1%Z);(1,1%Z);(2,1%Z);(3,1%Z)]).
Definition pend_vial : full_vial := mkFullVial 7 (mkData Londonaq "EXPLICIT" "laqbbA" 3 0 None None None None)
  (mkFull (tri_mp false (Some SuurballesHeuristic)) false) (mkPre false false true false false).
Definition pend_blocks (g : nxgraph) : list (list nat) := [[0;1;2]; [0;3]].
Definition pend_after : pygraph := mkPy (pg_adj tri_W) (pg_cost pend_W) (pg_prize pend_W).

Example C77_case : priced_graph pend_W 1 1 /\ sizes pend_W 1 1 /\ blocks_of (pg_adj pend_W) (pend_blocks (pg_adj pend_W)) /\
  graph_tour pend_W 0 [0;1;2;0] 3 3 /\ preprocessed (fun _ _ => []) pend_blocks 100 pend_vial pend_W pend_after /\
  run_on tri_lab pick_first (fun l => l) no_flow pend_vial pend_after 1 tri_G [1;1;1]%Z [1;1;1]%Z (fun v => 10 + v) (fun v => v) tri1_D
    (shifted_names 10) 100 tri1_dist tri1_paths tri_cm tri_pm /\
  starting_edges tri_lab pick_first (fun l => l) pend_after 3 0 (fp_model (fv_params pend_vial)) tri_cm tri_pm = Ok [(0,2);(2,1);(1,0)].
Proof.
  assert (U : undirected (pg_adj pend_W)) by (apply undirectedb_ok; vm_compute; reflexivity).
  assert (AD : forall u v, adj (pg_adj pend_W) u v -> In (u, v) [(0,1);(0,2);(0,3);(1,0);(1,2);(2,0);(2,1);(3,0)]).
  { intros u v (l & I & J). cbn in I. repeat destruct I as [I|I]; try (injection I as <- <-; cbn in J; repeat destruct J as [<-|J]; cbn; tauto). destruct I. }
  assert (VE : forall v, vertex (pg_adj pend_W) v -> v < 4).
  { intros v V. cbn in V. lia. }
  assert (NT : forall r t, cycle_at (adj (pg_adj pend_W)) r t -> ~ In 3 t).
  { intros r t C I. destruct (cycle_two_neighbours _ _ _ U C 3 I) as (a & b & NE & _ & _ & _ & _ & A & B).
    apply AD in A, B. cbn in A, B. repeat destruct A as [A|A]; try discriminate A; [|destruct A].
    repeat destruct B as [B|B]; try discriminate B; [|destruct B]. injection A as <-. injection B as <-. auto. }
  assert (C1 : forall a b c, In (a, b, c) [(0,1,2);(0,2,1);(1,0,2);(1,2,0);(2,0,1);(2,1,0)] -> cycle_at (adj (pg_adj pend_W)) a [a;b;c;a]).
  { intros a b c I. exists [b; c]. split; [reflexivity|].
    cbn in I. repeat destruct I as [I|I]; try (injection I as <- <- <-; split; [repeat (constructor; [cbn; lia|]); constructor|]; split; [cbn; lia|];
      repeat (constructor; [eexists; split; [cbn; eauto|cbn; tauto]|]); constructor). destruct I. }
  split.
  { split; auto.
    - apply attributes_check; [exact U|vm_compute; reflexivity..].
    - split; intros; [apply attrs_range|apply dget_range]; try (unfold int_min, int_max; lia); vm_compute; reflexivity.
    - intros u v A. apply AD in A. cbn in A. repeat destruct A as [A|A]; try (injection A as <- <-; reflexivity). destruct A.
    - intros u v A. apply AD in A. cbn in A. repeat destruct A as [A|A]; try (injection A as <- <-; vm_compute; split; discriminate). destruct A.
    - intros v V. apply VE in V. destruct v as [|[|[|[|v]]]]; try (vm_compute; split; discriminate). }
  split. { unfold sizes, small_numbers. cbn [pg_adj pend_W length]. unfold int_max. repeat split; cbn; lia. }
  split.
  { split; [|split].
    - intros c I. cbn in I. destruct I as [<-|[<-|[]]]; (split; [repeat (constructor; [cbn; lia|]); constructor|]); intros v V; cbn in *; lia.
    - intros r t C. exists [0;1;2]. split; [cbn; auto|]. intros v I. pose proof (VE v (cycle_vertices _ _ _ U C v I)).
      assert (v <> 3) by (intros ->; exact (NT r t C I)). cbn. lia.
    - intros c u v I L J K NE. cbn in I. destruct I as [<-|[<-|[]]]; [|cbn in L; lia].
      assert (X : exists w, In (u, v, w) [(0,1,2);(0,2,1);(1,0,2);(1,2,0);(2,0,1);(2,1,0)]).
      { cbn in J, K. destruct J as [<-|[<-|[<-|[]]]], K as [<-|[<-|[<-|[]]]]; try congruence; eexists; cbn; eauto 8. }
      destruct X as (w & X). exists [u; v; w; u]. split; [apply C1, X|cbn; auto]. }
  split. { split; [apply C1; cbn; auto|]. split; reflexivity. }
  split.
  { split; [reflexivity|]. split; [reflexivity|]. split; [reflexivity|]. split.
    - change (pg_adj pend_after) with (nx_subgraph (pg_adj pend_W) (fun v => Nat.ltb v 3)). apply subgraph_induced. exact U.
    - intros u. cbn [pend_after pg_adj]. split.
      + intros V. exists (if Nat.eqb u 2 then [0;2;1;0] else [0;1;2;0]). cbn in V.
        destruct V as [<-|[<-|[<-|[]]]]; cbn [Nat.eqb]; (split; [apply C1; cbn; auto|cbn; auto]).
      + intros (t & C & I). pose proof (VE u (cycle_vertices _ _ _ U C u I)). assert (u <> 3) by (intros ->; exact (NT _ t C I)). cbn. lia. }
  split.
  { split; [reflexivity|]. split.
    - assert (UA : undirected (pg_adj pend_after)) by (apply undirectedb_ok; vm_compute; reflexivity).
      apply (view_ok pend_after 3 UA). intros v V. cbn in V. lia.
    - split; [check|]. split; [exact tri_maps|]. split; [destruct tri_lab_ok as [Y1 Y2 Y3]; split; [exact Y1|exact Y2|exact Y3]|]. split; [exact pick_first_good|]. split; [intros; apply Permutation_refl|].
      split; [intros dd ss tt; cbn; apply repeat_length|]. cbn. unfold int_max. lia. }
  vm_compute. reflexivity.
Qed.

(** The heuristics on this graph: each finds the triangle. The exact vial with no solution of SCIP gets an empty result. *)
Example C77_run_case :
  let mp (a : algorithm_name) := mkModel false true (mkParams a None None (Some 1%Z)) None None None None None None None None None None None in
  let vial m := mkFullVial 7 (mkData Londonaq "EXPLICIT" "laqbbA" 3 0 None None None None) (mkFull m false) (mkPre false false true false false) in
  let run m := run_loaded (fun _ _ => []) pend_blocks 100 (vial_algorithm tri_lab pick_first (fun l => l) no_flow
    (fun _ => mkSur (shifted_names 10) 100 tri1_D 0 tri1_dist tri1_paths (map (fun e => (e, e)) (seq 0 6)) [] [])) (vial m) pend_W in
  run (mp BfsExtensionCollapse) = Ok 3%Z /\ run (mp BfsPathExtensionCollapse) = Ok 3%Z /\ run (mp SuurballesHeuristic) = Ok 3%Z /\
  run (tri_mp false (Some SuurballesHeuristic)) = Ok 0%Z.
Proof. repeat split; vm_compute; reflexivity. Qed.
