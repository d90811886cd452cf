(** * Spec_Csv: what the tables of results should contain *)
From Coq Require Import String QArith.
From Verif Require Import Base M_Python M_PyWrap M_RunAlg M_Compare M_Stats M_Csv.
Open Scope nat_scope.
Open Scope string_scope.

(** The columns with the settings of a vial, and those of a result. *)
Definition vial_columns : list string :=
  ["uuid"; "dataset"; "cost_function"; "graph_name"; "quota"; "root"; "alpha"; "generation"; "kappa"; "triangle";
   "algorithm"; "is_exact"; "is_heuristic"; "is_relaxation"; "branching_strategy"; "branching_max_depth";
   "collapse_paths"; "cost_cover_disjoint_paths"; "cost_cover_shortest_path"; "heuristic"; "path_depth_limit";
   "sec_disjoint_tour"; "sec_lp_gap_improvement_threshold"; "sec_maxflow_mincut"; "sec_max_tailing_off_iterations";
   "sec_sepafreq"; "step_size"; "time_limit";
   "disjoint_path_cutoff"; "remove_leaves"; "remove_disconnected_components"; "remove_one_connected_components";
   "shortest_path_cutoff"].
Definition result_columns : list string :=
  ["vial_uuid"; "objective"; "prize"; "edge_list"; "start_time"; "end_time"; "duration"; "feasible"; "overshoot"].
Definition stats_columns : list string :=
  ["status"; "lower_bound"; "upper_bound"; "num_cost_cover_disjoint_paths"; "num_cost_cover_shortest_paths";
   "nconss_presolve_disjoint_paths"; "nconss_presolve_shortest_paths"; "num_cycle_cover"; "num_nodes";
   "num_sec_disjoint_tour"; "num_sec_maxflow_mincut"].

(** The settings of a vial, one for every column of [vial_columns]. *)
Definition vial_cells (v : full_vial) : list cell :=
  let d := fv_data v in
  let mp := fp_model (fv_params v) in
  let h := mp_heur mp in
  [CUuid (fv_uuid v); CStr (dataset_value (dc_dataset d)); CStr (dc_cost_function d); CStr (dc_graph_name d);
   CInt (dc_quota d); CInt (Z.of_nat (dc_root d)); copt CInt (dc_alpha d); copt CStr (dc_generation d);
   copt CInt (dc_kappa d); copt CInt (dc_triangle d);
   CStr (algorithm_value (mp_algorithm h)); CBool (is_exact mp); CBool (is_heuristic mp);
   CBool (fp_relaxation (fv_params v)); copt CInt (mp_branching_strategy mp); copt CInt (mp_branching_max_depth mp);
   copt CBool (mp_collapse_paths h); copt CBool (mp_cc_disjoint mp); copt CBool (mp_cc_shortest mp);
   copt (fun a => CStr (algorithm_value a)) (mp_start mp); copt CInt (mp_path_depth_limit h);
   copt CBool (mp_sec_disjoint mp); copt (fun z => CNum (z # 1000)) (mp_lp_gap mp); copt CBool (mp_sec_maxflow mp);
   copt CInt (mp_tailing_off mp); copt CInt (mp_sepafreq mp); copt CInt (mp_step_size h);
   copt (fun z => CNum (z # 1)) (mp_time_limit mp);
   CBool (pre_disjoint_path_cutoff (fv_pre v)); CBool (pre_leaves (fv_pre v)); CBool (pre_components (fv_pre v));
   CBool (pre_one_connected (fv_pre v)); CBool (pre_shortest_path_cutoff (fv_pre v))].

(** The result of a vial: cost and overshoot are only given if the prize reaches the quota. *)
Definition result_cells (v : full_vial) (r : stored_result) : list cell :=
  let prize := r_prize (st_result r) in
  let quota := dc_quota (fv_data v) in
  let ok := Z.leb quota prize in
  [CUuid (fv_uuid v); (if ok then CInt (r_objective (st_result r)) else CNaN); CInt prize;
   CEdges (r_edges (st_result r)); CTime (st_start r); CTime (st_end r); CTime (st_end r - st_start r); CBool ok;
   (if ok then CInt (prize - quota) else CNaN)].

Definition stats_cells (s : @summary Q) : list cell :=
  [CInt (sm_status s); CNum (sm_lower s); CNum (sm_upper s); CInt (sm_cc_disjoint s); CInt (sm_cc_shortest s);
   CInt (sm_pre_disjoint s); CInt (sm_pre_shortest s); CInt (sm_cycle_cover s); CInt (sm_nodes s);
   CInt (sm_sec_disjoint s); CInt (sm_sec_maxflow s)].

(** The vials with a result, and those with a result and statistics, in order. *)
Definition with_result (F : experiment_files) (vials : list full_vial) : list (full_vial * stored_result) :=
  flat_map (fun v => match ef_result F (fv_uuid v) with RFile r => [(v, r)] | _ => [] end) vials.
Definition with_stats (F : experiment_files) (vials : list full_vial) : list (full_vial * stored_result * @summary Q) :=
  flat_map (fun '(v, r) => match ef_stats F (fv_uuid v) with SFile s => [(v, r, s)] | _ => [] end) (with_result F vials).

(** The tables: one row for every vial with a result (and statistics). *)
Definition heuristics_table (F : experiment_files) (vials : list full_vial) : frame :=
  mkFrame (vial_columns ++ result_columns)
    (map (fun '(v, r) => combine (vial_columns ++ result_columns) (vial_cells v ++ result_cells v r)%list)
      (with_result F vials)).
Definition branch_cut_table (F : experiment_files) (vials : list full_vial) : frame :=
  mkFrame (vial_columns ++ result_columns ++ stats_columns)
    (map (fun '(v, r, s) => combine (vial_columns ++ result_columns ++ stats_columns)
        (vial_cells v ++ result_cells v r ++ stats_cells s)%list) (with_stats F vials)).

(** The files of an experiment as the programs of the project leave them: different vials have
    different identifiers, the result in the file of a vial is that of the vial, and a file
    that is JSON or YAML has the fields that it should have. *)
Record proper_files (F : experiment_files) (vials : list full_vial) : Prop := {
  pf_vials : ef_vials F = Some vials;
  pf_distinct : NoDup (map fv_uuid vials);
  pf_own : forall v r, In v vials -> ef_result F (fv_uuid v) = RFile r -> st_uuid r = fv_uuid v;
  pf_results : forall v, In v vials -> ef_result F (fv_uuid v) <> RBadFields;
  pf_stats : forall v, In v vials -> ef_stats F (fv_uuid v) <> SNotMapping /\ ef_stats F (fv_uuid v) <> SBadFields }.

(** A table can be written: the experiment does not exist, or its files are proper, with at least one
    result and, for a table of branch and cut, at least one file of statistics. *)
Definition call_ready (lab : dataset_name -> experiment_name -> experiment_files) (call : dataset_name * experiment_name * bool) : Prop :=
  let '(d, e, branch_cut) := call in
  ef_vials (lab d e) = None \/
  exists vials, proper_files (lab d e) vials /\ with_result (lab d e) vials <> [] /\
    (branch_cut = true -> exists v s, In v vials /\ ef_stats (lab d e) (fv_uuid v) = SFile s).

(** The tables that the command for all experiments should write, in this order, and whether they have the
    columns of the statistics. *)
Definition tables_in_order : list (dataset_name * experiment_name * bool) :=
  [(Londonaq, CostCover, true); (Londonaq, TailingOff, true); (Londonaq, CompareHeuristics, false);
   (Tspwplib, CostCover, true); (Tspwplib, TailingOff, true); (Tspwplib, CompareHeuristics, false)].

(** A file of statistics that does not stop the table. *)
Definition passed_over_or_read (f : stats_file) : Prop :=
  f = SNoFile \/ f = SNotYaml \/ exists s, f = SFile s.

(** The table that a call should write. *)
Definition call_tables (lab : dataset_name -> experiment_name -> experiment_files) (call : dataset_name * experiment_name * bool)
    : list (dataset_name * experiment_name * frame) :=
  let '(d, e, branch_cut) := call in
  match ef_vials (lab d e) with
  | None => []
  | Some vials => [(d, e, if branch_cut then branch_cut_table (lab d e) vials else heuristics_table (lab d e) vials)]
  end.
