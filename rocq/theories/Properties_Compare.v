(** * Properties_Compare: the theorems for C62 (the vials of an experiment, pctsp/compare and
    pctsp/apps/main_app.py) *)
From Coq Require Import String Lia Permutation.
From Verif Require Import Base Graph Spec Spec_Python Spec_PyWrap Spec_ILP Spec_Solve Spec_Dataset Spec_Suurballe Spec_Split Spec_RunAlg
  M_Dijkstra M_Solution M_ILP M_MaxFlow M_Solve M_Python M_PyCycle M_PyWrap M_Suurballe M_DisjointMap M_Dataset M_RunAlg M_Compare Spec_Compare.
From Verif Require Import P_Base P_Compare P_Dijkstra P_Solve P_PyWrap P_SplitMap P_RunAlg P_CompareRun P_CompareSet.
From Verif Require Import Properties_Split Properties_RunAlg.
Open Scope nat_scope.

(** Every combination has its vial, in the order of the lists, with a uuid of its own. *)
Theorem C62_vials : forall uuid data params pre i j k d m p,
  nth_error data i = Some d -> nth_error params j = Some m -> nth_error pre k = Some p ->
  let x := (i * List.length params + j) * List.length pre + k in
  nth_error (product_of_vials uuid data params pre) x = Some (mkFullVial (uuid x) d m p).
Proof. exact vials_nth. Qed.
Print Assumptions C62_vials.

Theorem C62_vials_count : forall uuid data params pre,
  List.length (product_of_vials uuid data params pre) = List.length data * (List.length params * List.length pre).
Proof. exact vials_length. Qed.
Print Assumptions C62_vials_count.

(** The data of tspwplib: every combination, in order; kappa 0 becomes None. *)
Theorem C62_tspwplib_data : forall F al kl gl nl cl i1 i2 i3 i4 i5 a k g n c,
  nth_error al i1 = Some a -> nth_error kl i2 = Some k -> nth_error gl i3 = Some g -> nth_error nl i4 = Some n -> nth_error cl i5 = Some c ->
  exists k', (k' = k /\ k <> Some 0%Z \/ k' = None /\ k = Some 0%Z) /\
  nth_error (product_of_tspwplib_data_config F al kl gl nl cl)
    ((((i1 * List.length kl + i2) * List.length gl + i3) * List.length nl + i4) * List.length cl + i5)
  = Some (mkData Tspwplib c n (op_quota F g n a) (op_root F g n) (Some a) (Some g) k' (Some 0%Z)).
Proof.
  intros. exists (or_none k). split; [|apply tsp_nth; assumption].
  destruct k as [z|]; cbn; [destruct (Z.eqb_spec z 0)|]; [right; split; congruence|left; split; congruence..].
Qed.
Print Assumptions C62_tspwplib_data.

(** The data of londonaq, with the given quotas and with those for alpha. *)
Theorem C62_londonaq_data : forall F ql nl i j q n, nth_error ql i = Some q -> nth_error nl j = Some n ->
  nth_error (product_of_londonaq_data_config F ql nl) (i * List.length nl + j)
    = Some (mkData Londonaq (laq_cost F n) n q (laq_root F n) None None None None) /\
  nth_error (product_of_londonaq_data_config_from_alpha F ql nl) (i * List.length nl + j)
    = Some (mkData Londonaq (laq_cost F n) n (laq_quota F n q) (laq_root F n) (Some q) None None None).
Proof.
  intros F ql nl i j q n Q N. pose proof (product2_nth _ _ _ _ _ _ Q N) as E.
  unfold product_of_londonaq_data_config, product_of_londonaq_data_config_from_alpha.
  split; erewrite map_nth_error by exact E; reflexivity.
Qed.
Print Assumptions C62_londonaq_data.

(** The number of data settings. *)
Theorem C62_data_count : forall F al kl gl nl cl,
  List.length (product_of_tspwplib_data_config F al kl gl nl cl) =
    List.length al * List.length kl * List.length gl * List.length nl * List.length cl /\
  List.length (product_of_londonaq_data_config F al nl) = List.length al * List.length nl /\
  List.length (product_of_londonaq_data_config_from_alpha F al nl) = List.length al * List.length nl.
Proof. intros. split; [apply tsp_length|]. split; [apply laq_length|apply laq_alpha_length]. Qed.
Print Assumptions C62_data_count.

(** An experiment that is offered for a data set has the expected number of vials, all with the
    data set, quota and root of their instance; every other name raises ValueError. *)
Theorem C62_experiment : forall F uuid d e,
  (offered d e -> exists vs, experiment_vials F uuid d e = Ok vs /\ List.length vs = vial_count d e (List.length (all_generations F)) /\
    Forall (fun v => dc_dataset (fv_data v) = d /\ data_from_files F (fv_data v) /\ fv_pre v = mkPre false false true false false) vs) /\
  (~ offered d e -> experiment_vials F uuid d e = Throw ValueErrorPy).
Proof. exact experiment_ok. Qed.
Print Assumptions C62_experiment.

(** No two vials of an experiment are alike, and no two have the same uuid. *)
Theorem C62_distinct : forall F uuid d e vs, experiment_vials F uuid d e = Ok vs -> NoDup (all_generations F) ->
  (forall i j, uuid i = uuid j -> i = j) ->
  NoDup (map (fun v => (fv_data v, fv_params v, fv_pre v)) vs) /\ NoDup (map fv_uuid vs).
Proof. exact experiment_distinct. Qed.
Print Assumptions C62_distinct.

(** Every instance of an experiment, and nothing else, is combined with the settings of the
    experiment as they are written out in Spec_Compare: time limits, branching strategies, tailing off, cuts, starts. *)
Theorem C62_settings : forall F uuid d e vs, experiment_vials F uuid d e = Ok vs ->
  exists data, map (fun v => (fv_data v, fv_params v)) vs = flat_map (fun x => map (pair x) (settings e)) data /\
    forall x, In x data <-> instance_of F d e x.
Proof. exact experiment_settings. Qed.
Print Assumptions C62_settings.

(** What the commands tsplib and londonaq build from their options. *)
Theorem C62_command_settings : forall a bd cp cc1 cc2 h pdl ss gap tail tl,
  let tsplib a := tsplib_params a bd cp cc1 cc2 h pdl ss gap tail tl in
  let exact heur start bd tail gap := mkFull (mkModel true false heur start (Some cc1) (Some cc2) (Some true) (Some true)
    (Some bd) (Some 2%Z) (Some tail) (Some 1%Z) (Some gap) (Some tl)) false in
  (h = Some BfsExtensionCollapse ->
    tsplib SolvePctsp = exact (mkParams SolvePctsp (Some cp) (Some pdl) (Some ss)) h bd tail gap) /\
  (h <> Some BfsExtensionCollapse -> tsplib SolvePctsp = exact (mkParams SolvePctsp None None None) h bd tail gap) /\
  londonaq_params SolvePctsp cc1 cc2 tl = exact (mkParams SolvePctsp None None None) None 1%Z (-1)%Z 1%Z /\
  (implemented a \/ a = Extension ->
    (a = BfsExtensionCollapse -> tsplib a = heuristic_setting a (Some cp) (Some pdl) (Some ss)) /\
    (a <> BfsExtensionCollapse -> tsplib a = heuristic_setting a None None None) /\
    londonaq_params a cc1 cc2 tl = heuristic_setting a None None None) /\
  tsplib DisjointToursRelaxation = relaxation_setting DisjointToursRelaxation /\
  londonaq_params DisjointToursRelaxation cc1 cc2 tl = relaxation_setting DisjointToursRelaxation.
Proof. exact command_settings. Qed.
Print Assumptions C62_command_settings.

(** All parameters of all experiments except disjoint_tours_vs_heuristics are those of an
    algorithm that can be run. *)
Theorem C62_runnable : forall F uuid d e vs, experiment_vials F uuid d e = Ok vs -> e <> DisjointToursVsHeuristics ->
  Forall (fun v => runnable (fv_params v)) vs.
Proof. exact experiment_runnable. Qed.
Print Assumptions C62_runnable.

(** A third of the vials of disjoint_tours_vs_heuristics raise NotImplementedError. *)
Theorem C62_relaxation_refuted : forall F uuid, exists vs, experiment_vials F uuid Tspwplib DisjointToursVsHeuristics = Ok vs /\
  List.length (filter (fun v => fp_relaxation (fv_params v)) vs) = 108 /\
  forall v, In v vs -> fp_relaxation (fv_params v) = true ->
    forall L tb so mf N depth D s dist paths W entries cbs sols cm pm, disjoint_maps N depth D s dist paths = Ok (cm, pm) ->
    run_algorithm L tb so mf N depth D s dist paths W (dc_quota (fv_data v)) (dc_root (fv_data v)) (fp_model (fv_params v))
      entries cbs sols = Throw NotImplementedErrorPy.
Proof. exact relaxation_vials. Qed.
Print Assumptions C62_relaxation_refuted.

(** The experiment baseline: on every instance with a tour through the root, branch and cut
    starts with the breadth-first extension & collapse and is exact. *)
Theorem C62_baseline : forall F uuid d vs v L tb so mf W G c p n C P vt vh D N depth dist paths cm pm t0,
  experiment_vials F uuid d Baseline = Ok vs -> In v vs ->
  let quota := dc_quota (fv_data v) in let root := dc_root (fv_data v) in let mp := fp_model (fv_params v) in
  instance W G c p n C P -> small_numbers n C P -> (2 * (Z.of_nat n * C) < int_max)%Z ->
  (Z.of_nat (List.length (ge G) + n) <= 1000000000)%Z -> (- int_max <= quota <= int_max)%Z ->
  good_pick tb -> (forall l, Permutation (so l) l) -> (forall d s t, List.length (snd (mf d s t)) = List.length (n_arcs d)) ->
  maps_call W G c vt vh D N root depth dist paths cm pm -> lab_ok L W G p quota root -> tour_from G root t0 ->
  exists he, starting_edges L tb so W quota root mp cm pm = Ok he /\
    solved L tb so mf N depth D (vh root) dist paths cm W G c p quota root mp he.
Proof. exact baseline_solved. Qed.
Print Assumptions C62_baseline.

(** The exact vials of the experiments simple_branch_cut and dryrun: branch and cut without a
    start is exact. *)
Theorem C62_simple_branch_cut : forall F uuid d e vs v L tb so mf W G c p n C P vt vh D N depth dist paths cm pm,
  experiment_vials F uuid d e = Ok vs -> e = SimpleBranchCut \/ e = Dryrun -> In v vs -> is_exact (fp_model (fv_params v)) = true ->
  let quota := dc_quota (fv_data v) in let root := dc_root (fv_data v) in let mp := fp_model (fv_params v) in
  instance W G c p n C P -> (0 <= C)%Z -> (2 * (Z.of_nat n * C) < int_max)%Z -> (Z.of_nat n * P <= int_max)%Z ->
  (Z.of_nat (List.length (ge G) + n) <= 1000000000)%Z -> (- int_max <= quota <= int_max)%Z ->
  good_pick tb -> (forall d s t, List.length (snd (mf d s t)) = List.length (n_arcs d)) ->
  maps_call W G c vt vh D N root depth dist paths cm pm -> lab_ok L W G p quota root ->
  starting_edges L tb so W quota root mp cm pm = Ok [] /\
  solved L tb so mf N depth D (vh root) dist paths cm W G c p quota root mp [].
Proof. exact simple_solved. Qed.
Print Assumptions C62_simple_branch_cut.

(** Whatever a heuristic vial says about collapse_paths, the result is the same. *)
Theorem C62_collapse_ignored : forall L tb so mf N depth D s dist paths W quota root entries cbs sols ex h b b' st o1 o2 o3 o4 o5 o6 o7 o8 o9 o10,
  let mp x := mkModel ex true (mkParams (mp_algorithm h) x (mp_path_depth_limit h) (mp_step_size h)) st o1 o2 o3 o4 o5 o6 o7 o8 o9 o10 in
  run_algorithm L tb so mf N depth D s dist paths W quota root (mp b) entries cbs sols =
  run_algorithm L tb so mf N depth D s dist paths W quota root (mp b') entries cbs sols.
Proof. reflexivity. Qed.
Print Assumptions C62_collapse_ignored.

(** The options collapse_paths, path_depth_limit and step_size of the command tsplib never change
    the result: they are only stored for an algorithm that ignores them. *)
Theorem C62_options_ignored : forall L tb so mf N depth D s dist paths W quota root entries cbs sols
    a bd cc1 cc2 h gap tail tl cp pdl ss cp' pdl' ss',
  run_algorithm L tb so mf N depth D s dist paths W quota root
    (fp_model (tsplib_params a bd cp cc1 cc2 h pdl ss gap tail tl)) entries cbs sols =
  run_algorithm L tb so mf N depth D s dist paths W quota root
    (fp_model (tsplib_params a bd cp' cc1 cc2 h pdl' ss' gap tail tl)) entries cbs sols.
Proof. intros. destruct a; try reflexivity. destruct h as [h|]; [destruct h|]; reflexivity. Qed.
Print Assumptions C62_options_ignored.

(** The commands accept every algorithm and every start. Those that are implemented can be run. *)
Theorem C62_commands : forall a bd cp cc1 cc2 h pdl ss gap tail tl,
  a = SolvePctsp \/ implemented a -> (forall x, h = Some x -> implemented x) ->
  fits_int bd -> fits_int tail -> fits_int pdl -> fits_int ss -> (ss < int_max)%Z ->
  runnable (tsplib_params a bd cp cc1 cc2 h pdl ss gap tail tl) /\ runnable (londonaq_params a cc1 cc2 tl).
Proof. exact commands_runnable. Qed.
Print Assumptions C62_commands.

(** The heuristic extension and relaxations are accepted but raise NotImplementedError, and so
    does branch and cut with a start that is not implemented. *)
Theorem C62_commands_not_implemented : forall L tb so mf N depth D s dist paths W quota root entries cbs sols cm pm
    a bd cp cc1 cc2 h pdl ss gap tail tl,
  disjoint_maps N depth D s dist paths = Ok (cm, pm) ->
  a = Extension \/ a = DisjointToursRelaxation \/ (a = SolvePctsp /\ exists x, h = Some x /\ ~ implemented x) ->
  run_algorithm L tb so mf N depth D s dist paths W quota root
    (fp_model (tsplib_params a bd cp cc1 cc2 h pdl ss gap tail tl)) entries cbs sols = Throw NotImplementedErrorPy.
Proof. exact commands_fail. Qed.
Print Assumptions C62_commands_not_implemented.

(** ** cases *)

Definition case_files : problem_files := mkFiles (fun g n a => if String.eqb g "gen1" then a else 3%Z) (fun _ _ => 0)
  (fun _ a => (10 * a)%Z) (fun _ => 7) (fun _ => "GEO"%string) ["gen1"; "gen2"]%string.

Example C62_vials_case :
  product_of_vials S (product_of_londonaq_data_config case_files [5; 6]%Z ["x"]%string)
    [exact_params 1 2 5 1 true true false SuurballesHeuristic None 10] (product_of_preprocessing [true; false] [false] [true]) =
  let d q := mkData Londonaq "GEO" "x" q 7 None None None None in
  let m := exact_params 1 2 5 1 true true false SuurballesHeuristic None 10 in
  [mkFullVial 1 (d 5%Z) m (mkPre true false true false false); mkFullVial 2 (d 5%Z) m (mkPre false false true false false);
   mkFullVial 3 (d 6%Z) m (mkPre true false true false false); mkFullVial 4 (d 6%Z) m (mkPre false false true false false)].
Proof. reflexivity. Qed.

Example C62_data_case :
  map (fun x => (dc_alpha x, dc_kappa x, dc_generation x, dc_quota x))
    (product_of_tspwplib_data_config case_files [5; 25]%Z [None; Some 0; Some 10]%Z ["gen1"; "gen2"]%string ["st70"]%string ["MST"]%string) =
  [(Some 5, None, Some "gen1"%string, 5); (Some 5, None, Some "gen2"%string, 3);
   (Some 5, None, Some "gen1"%string, 5); (Some 5, None, Some "gen2"%string, 3);
   (Some 5, Some 10, Some "gen1"%string, 5); (Some 5, Some 10, Some "gen2"%string, 3);
   (Some 25, None, Some "gen1"%string, 25); (Some 25, None, Some "gen2"%string, 3);
   (Some 25, None, Some "gen1"%string, 25); (Some 25, None, Some "gen2"%string, 3);
   (Some 25, Some 10, Some "gen1"%string, 25); (Some 25, Some 10, Some "gen2"%string, 3)]%Z.
Proof. reflexivity. Qed.

Example C62_experiment_case : offered Tspwplib Baseline /\ ~ offered Londonaq SimpleBranchCut /\ ~ offered Tspwplib Onerun /\
  NoDup (all_generations case_files) /\
  (exists vs, experiment_vials case_files S Tspwplib Baseline = Ok vs /\ List.length vs = 900) /\
  (exists vs, experiment_vials case_files S Londonaq LondonaqAlpha = Ok vs /\ List.length vs = 100 /\
    nth_error vs 7 = Some (mkFullVial 8 (mkData Londonaq "GEO" "laqidA" 50 7 (Some 5%Z) None None None)
      (mkFull (mkModel false true (mkParams SuurballesExtensionCollapse (Some false) (Some 2%Z) (Some 1%Z)) None
        None None None None None None None None None None) false) (mkPre false false true false false))).
Proof.
  split; [cbn; tauto|]. split; [cbn; intuition discriminate|]. split; [cbn; intuition discriminate|].
  split; [repeat constructor; cbn; intuition discriminate|].
  split; eexists; (split; [reflexivity|]); [vm_compute; reflexivity|split; vm_compute; reflexivity].
Qed.

(** A vial of the experiment baseline with generation gen2 on the triangle, with all the
    hypotheses of the theorem; a run of SCIP that ends with no other solution than the start. *)
Definition zero_flow : flow_lib := fun d _ _ => (0%Z, map (fun _ => 0%Z) (n_arcs d)).

Example C62_baseline_case : exists vs v, experiment_vials case_files S Tspwplib Baseline = Ok vs /\ nth_error vs 18 = Some v /\
  dc_quota (fv_data v) = 3%Z /\ dc_root (fv_data v) = 0 /\
  instance tri_W tri_G [1;1;1]%Z [1;1;1]%Z 3 1 1 /\ small_numbers 3 1 1 /\
  (forall d s t, List.length (snd (zero_flow d s t)) = List.length (n_arcs d)) /\
  maps_call tri_W tri_G [1;1;1]%Z (fun v => 10 + v) (fun v => v) tri1_D (shifted_names 10) 0 100 tri1_dist tri1_paths tri_cm tri_pm /\
  lab_ok tri_lab tri_W tri_G [1;1;1]%Z 3 0 /\ tour_from tri_G 0 [0;1;2;0] /\
  starting_edges tri_lab pick_first (fun l => l) tri_W 3 0 (fp_model (fv_params v)) tri_cm tri_pm = Ok [(0,1);(1,2);(2,0)].
Proof.
  eexists. eexists. split; [reflexivity|]. split; [vm_compute; reflexivity|]. split; [reflexivity|]. split; [reflexivity|].
  split; [exact tri_instance|]. split; [unfold small_numbers, int_max; lia|]. split; [intros; cbn; apply map_length|].
  split; [exact tri_maps|]. split; [exact tri_lab_ok|]. split; [P_Check.check|]. vm_compute. reflexivity.
Qed.

(** The exact vial of the experiment dryrun on the triangle. *)
Example C62_simple_case : exists vs v, experiment_vials (mkFiles (fun _ _ _ => 3%Z) (fun _ _ => 0) (fun _ _ => 3%Z) (fun _ => 0) (fun _ => "GEO"%string) []) S
    Tspwplib Dryrun = Ok vs /\ nth_error vs 2 = Some v /\ is_exact (fp_model (fv_params v)) = true /\
  run_algorithm tri_lab pick_first (fun l => l) zero_flow (shifted_names 10) 100 tri1_D 0 tri1_dist tri1_paths tri_W
    (dc_quota (fv_data v)) (dc_root (fv_data v)) (fp_model (fv_params v)) [] [] [] = Ok (mkResult 0 0 []).
Proof.
  eexists. eexists. split; [reflexivity|]. split; [vm_compute; reflexivity|]. split; [reflexivity|]. vm_compute. reflexivity.
Qed.

(** The commands: the same result with and without options, and two algorithms that are not
    implemented. *)
Example C62_commands_case :
  let run mp := run_algorithm tri_lab pick_first (fun l => l) zero_flow (shifted_names 10) 100 tri1_D 0 tri1_dist tri1_paths tri_W 3 0 mp [] [] [] in
  run (fp_model (tsplib_params BfsExtensionCollapse 1 true true false None 2 1 1 5 100)) = Ok (mkResult 3 3 [(0,1);(1,2);(2,0)]) /\
  run (fp_model (tsplib_params BfsExtensionCollapse 1 false true false None 7 3 1 5 100)) = Ok (mkResult 3 3 [(0,1);(1,2);(2,0)]) /\
  run (fp_model (tsplib_params Extension 1 false true false None 7 3 1 5 100)) = Throw NotImplementedErrorPy /\
  run (fp_model (tsplib_params SolvePctsp 1 false true false (Some Extension) 7 3 1 5 100)) = Throw NotImplementedErrorPy /\
  fits_int 5 /\ implemented BfsExtensionCollapse /\ ~ implemented Extension.
Proof.
  cbn zeta. repeat (split; [vm_compute; reflexivity|]). split; [unfold fits_int, int_min, int_max; lia|].
  split; cbn; [tauto|intuition discriminate].
Qed.
