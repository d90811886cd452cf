(** * M_Csv: the tables of results, pctsp/apps/csv_app.py and pctsp/vial/vial.py:26-51. *)
From Coq Require Import String QArith.
From Verif Require Import Base M_Python M_PyWrap M_RunAlg M_Compare M_Stats.
Open Scope nat_scope.
Open Scope string_scope.

(** A value in a table (csv_app.py:33-63). Points in time and durations are counted in microseconds;
    members of an enumeration are their values. *)
Inductive cell :=
| CNone | CNaN | CBool (b : bool) | CInt (z : Z) | CNum (q : Q) | CStr (s : string) | CUuid (u : nat)
| CEdges (l : list (nat * nat)) | CTime (t : Z).

(** A Python dictionary with names as keys, in order of insertion (vial.py:37-46). *)
Definition row := list (string * cell).

(** [row[name] = x] (vial.py:45; Python). *)
Fixpoint rset (r : row) (name : string) (x : cell) : row :=
  match r with
  | [] => [(name, x)]
  | (k, y) :: r => if String.eqb k name then (k, x) :: r else (k, y) :: rset r name x
  end.

(** [row[name]] (csv_app.py:36-46; pandas). *)
Fixpoint rget (r : row) (name : string) : option cell :=
  match r with
  | [] => None
  | (k, y) :: r => if String.eqb k name then Some y else rget r name
  end.

(** Optional fields of the models of pydantic (vial/data_config.py:29-32, vial/model_params.py:79-92). *)
Definition copt {A} (f : A -> cell) (o : option A) : cell := match o with Some a => f a | None => CNone end.

(** DatasetName, vial/data_config.py:14-15. *)
Definition dataset_value (d : dataset_name) : string :=
  match d with Londonaq => "londonaq" | Tspwplib => "tspwplib" end.

(** AlgorithmName, vial/model_params.py:13-20. *)
Definition algorithm_value (a : algorithm_name) : string :=
  match a with
  | DisjointToursRelaxation => "disjoint_tours_relaxation"
  | Extension => "extension"
  | BfsExtensionCollapse => "bfs_extension_collapse"
  | BfsPathExtensionCollapse => "bfs_path_extension_collapse"
  | SolvePctsp => "solve_pctsp"
  | SuurballesExtensionCollapse => "suurballes_extension_collapse"
  | SuurballesHeuristic => "suurballes_heuristic"
  | SuurballesPathExtensionCollapse => "suurballes_path_extension_collapse"
  end.

(** [vial.data_config.dict()], vial/data_config.py:24-32. *)
Definition data_dict (d : data_config) : row :=
  [("dataset", CStr (dataset_value (dc_dataset d)));
   ("cost_function", CStr (dc_cost_function d));
   ("graph_name", CStr (dc_graph_name d));
   ("quota", CInt (dc_quota d));
   ("root", CInt (Z.of_nat (dc_root d)));
   ("alpha", copt CInt (dc_alpha d));
   ("generation", copt CStr (dc_generation d));
   ("kappa", copt CInt (dc_kappa d));
   ("triangle", copt CInt (dc_triangle d))].

(** [vial.model_params.dict()], vial/model_params.py:75-92. *)
Definition params_dict (fp : full_params) : row :=
  let mp := fp_model fp in
  let h := mp_heur mp in
  [("algorithm", CStr (algorithm_value (mp_algorithm h)));
   ("is_exact", CBool (is_exact mp));
   ("is_heuristic", CBool (is_heuristic mp));
   ("is_relaxation", CBool (fp_relaxation fp));
   ("branching_strategy", copt CInt (mp_branching_strategy mp));
   ("branching_max_depth", copt CInt (mp_branching_max_depth mp));
   ("collapse_paths", copt CBool (mp_collapse_paths h));
   ("cost_cover_disjoint_paths", copt CBool (mp_cc_disjoint mp));
   ("cost_cover_shortest_path", copt CBool (mp_cc_shortest mp));
   ("heuristic", copt (fun a => CStr (algorithm_value a)) (mp_start mp));
   ("path_depth_limit", copt CInt (mp_path_depth_limit h));
   ("sec_disjoint_tour", copt CBool (mp_sec_disjoint mp));
   ("sec_lp_gap_improvement_threshold", copt (fun z => CNum (z # 1000)) (mp_lp_gap mp));
   ("sec_maxflow_mincut", copt CBool (mp_sec_maxflow mp));
   ("sec_max_tailing_off_iterations", copt CInt (mp_tailing_off mp));
   ("sec_sepafreq", copt CInt (mp_sepafreq mp));
   ("step_size", copt CInt (mp_step_size h));
   ("time_limit", copt (fun z => CNum (z # 1)) (mp_time_limit mp))].

(** [vial.preprocessing.dict()], vial/preprocessing.py:11-15. *)
Definition pre_dict (p : preprocessing) : row :=
  [("disjoint_path_cutoff", CBool (pre_disjoint_path_cutoff p));
   ("remove_leaves", CBool (pre_leaves p));
   ("remove_disconnected_components", CBool (pre_components p));
   ("remove_one_connected_components", CBool (pre_one_connected p));
   ("shortest_path_cutoff", CBool (pre_shortest_path_cutoff p))].

(** flat_dict_from_vial, vial.py:26-46. *)
Definition flat_dict_from_vial (v : full_vial) : row :=
  fold_left (fun d fx => rset d (fst fx) (snd fx))
    (data_dict (fv_data v) ++ params_dict (fv_params v) ++ pre_dict (fv_pre v)) [("uuid", CUuid (fv_uuid v))].

(** Result, vial/result.py:12-20. *)
Record stored_result := mkStored { st_uuid : nat; st_result : run_result; st_start : Z; st_end : Z }.

(** [x.dict()] of a Result (csv_app.py:34), vial/result.py:15-20. *)
Definition result_dict (r : stored_result) : row :=
  [("vial_uuid", CUuid (st_uuid r));
   ("objective", CInt (r_objective (st_result r)));
   ("prize", CInt (r_prize (st_result r)));
   ("edge_list", CEdges (r_edges (st_result r)));
   ("start_time", CTime (st_start r));
   ("end_time", CTime (st_end r))].

(** [stats.dict()] with the name of the vial (csv_app.py:58-59), data_structures.py:11-21. The bounds are
    exact numbers. *)
Definition stats_dict (u : nat) (s : @summary Q) : row :=
  [("status", CInt (sm_status s));
   ("lower_bound", CNum (sm_lower s));
   ("upper_bound", CNum (sm_upper s));
   ("num_cost_cover_disjoint_paths", CInt (sm_cc_disjoint s));
   ("num_cost_cover_shortest_paths", CInt (sm_cc_shortest s));
   ("nconss_presolve_disjoint_paths", CInt (sm_pre_disjoint s));
   ("nconss_presolve_shortest_paths", CInt (sm_pre_shortest s));
   ("num_cycle_cover", CInt (sm_cycle_cover s));
   ("num_nodes", CInt (sm_nodes s));
   ("num_sec_disjoint_tour", CInt (sm_sec_disjoint s));
   ("num_sec_maxflow_mincut", CInt (sm_sec_maxflow s));
   ("vial_uuid", CUuid u)].

(** A DataFrame (pandas, not in /repo; csv_app.py:33-63): the names of the columns and the rows. *)
Record frame := mkFrame { f_cols : list string; f_rows : list row }.

(** [pd.DataFrame(l)], [pd.DataFrame.from_records(l)] for a list of dictionaries with the same keys
    (vial.py:51, csv_app.py:34,63; pandas): without dictionaries there are no columns. *)
Definition dataframe (l : list row) : frame :=
  mkFrame (match l with [] => [] | r :: _ => map fst r end) l.

(** [name in df] (csv_app.py:35-46; pandas). *)
Definition has_col (cols : list string) (c : string) : bool := existsb (String.eqb c) cols.

(** Equality of the identifiers on which tables are joined (csv_app.py:35,100-102; pandas). *)
Definition same_key (a b : option cell) : bool :=
  match a, b with Some (CUuid u), Some (CUuid v) => Nat.eqb u v | _, _ => false end.

(** [L.merge(R, left_on=lk, right_on=rk)] (csv_app.py:35,100-102; pandas): the pairs of rows with equal keys,
    in the order of the left table. A key that is no column is a KeyError. A key with the same
    name on both sides gives one column; other columns with the same name get a suffix. *)
Definition merge (L R : frame) (lk rk : string) : res frame :=
  if andb (has_col (f_cols L) lk) (has_col (f_cols R) rk) then
    let shared c := andb (String.eqb lk rk) (String.eqb c lk) in
    let overlap c := andb (andb (has_col (f_cols L) c) (has_col (f_cols R) c)) (negb (shared c)) in
    let ren s c := if overlap c then c ++ s else c in
    let right r := filter (fun cx => negb (shared (fst cx))) r in
    Ok (mkFrame
      (map (ren "_x") (f_cols L) ++ map (ren "_y") (filter (fun c => negb (shared c)) (f_cols R)))%list
      (flat_map (fun l => map (fun r =>
          (map (fun cx => (ren "_x" (fst cx), snd cx)) l ++ map (fun cx => (ren "_y" (fst cx), snd cx)) (right r))%list)
        (filter (fun r => same_key (rget l lk) (rget r rk)) (f_rows R))) (f_rows L)))
  else Throw KeyErrorPy.

(** [df[name] = f(df[a], df[b], ...)] (csv_app.py:36-47; pandas): KeyError if one of the columns
    [from] does not exist; otherwise the column is replaced or added at the end. *)
Definition assign (F : frame) (name : string) (from : list string) (f : row -> res cell) : res frame :=
  if forallb (has_col (f_cols F)) from then
    do rows <- mapM (fun r => do x <- f r; Ok (rset r name x)) (f_rows F);
    Ok (mkFrame (if has_col (f_cols F) name then f_cols F else (f_cols F ++ [name])%list) rows)
  else Throw KeyErrorPy.

(** [(end_time - start_time).total_seconds()], csv_app.py:36-38. *)
Definition duration_of (r : row) : res cell :=
  match rget r "end_time", rget r "start_time" with
  | Some (CTime e), Some (CTime s) => Ok (CTime (e - s))
  | _, _ => Throw TypeErrorPy
  end.

(** [prize >= quota], csv_app.py:39. *)
Definition feasible_of (r : row) : res cell :=
  match rget r "prize", rget r "quota" with
  | Some (CInt p), Some (CInt q) => Ok (CBool (Z.leb q p))
  | _, _ => Throw TypeErrorPy
  end.

(** [np.where(feasible, objective, nan)], csv_app.py:42-44. (An integer becomes a float.) *)
Definition objective_of (r : row) : res cell :=
  match rget r "feasible", rget r "objective" with
  | Some (CBool b), Some x => Ok (if b then x else CNaN)
  | _, _ => Throw TypeErrorPy
  end.

(** [np.where(feasible, prize - quota, nan)], csv_app.py:45-47. (An integer becomes a float.) *)
Definition overshoot_of (r : row) : res cell :=
  match rget r "feasible", rget r "prize", rget r "quota" with
  | Some (CBool b), Some (CInt p), Some (CInt q) => Ok (if b then CInt (p - q) else CNaN)
  | _, _, _ => Throw TypeErrorPy
  end.

(** experiment_summary_df, csv_app.py:29-48, with dataframe_from_vial_list, vial.py:49-51. *)
Definition experiment_summary_df (vials : list full_vial) (results : list stored_result) : res frame :=
  let vial_df := dataframe (map flat_dict_from_vial vials) in
  let result_df := dataframe (map result_dict results) in
  do j <- merge vial_df result_df "uuid" "vial_uuid";
  do j <- assign j "duration" ["end_time"; "start_time"] duration_of;
  do j <- assign j "feasible" ["prize"; "quota"] feasible_of;
  do j <- assign j "objective" ["feasible"; "objective"] objective_of;
  assign j "overshoot" ["feasible"; "prize"; "quota"] overshoot_of.

(** The result file of a vial (vial/result.py:42-58): none, text that is not JSON, JSON without the
    fields of a result, or a result. *)
Inductive stored_file := RNoFile | RNotJson | RBadFields | RFile (r : stored_result).

(** The file of statistics of a vial (data_structures.py:23-28): none, text that is not YAML, YAML that is
    no mapping (so an empty file), a mapping without the fields, or statistics. *)
Inductive stats_file := SNoFile | SNotYaml | SNotMapping | SBadFields | SFile (s : @summary Q).

(** The directory of an experiment (lab.py:215-225): the vials of experiment.json, if it exists, and the
    files of every vial. *)
Record experiment_files := mkExperimentFiles {
  ef_vials : option (list full_vial); ef_result : nat -> stored_file; ef_stats : nat -> stats_file }.

(** Lab.read_experiment_from_file, lab.py:227-242 (only the vials). *)
Definition read_experiment (F : experiment_files) : res (list full_vial) :=
  match ef_vials F with Some vs => Ok vs | None => Throw FileNotFoundErrorPy end.

(** Lab.read_results_from_file, lab.py:269-287. *)
Definition read_results (F : experiment_files) (vials : list full_vial) : res (list stored_result) :=
  foldM (fun results v =>
    match ef_result F (fv_uuid v) with
    | RFile r => Ok (results ++ [r])%list
    | RNoFile | RNotJson => Ok results
    | RBadFields => Throw ValidationErrorPy
    end) vials [].

(** SummaryStats.from_yaml, data_structures.py:23-28. *)
Definition stats_from_yaml (f : stats_file) : res (@summary Q) :=
  match f with
  | SNoFile => Throw FileNotFoundErrorPy
  | SNotYaml => Throw YAMLErrorPy
  | SNotMapping => Throw TypeErrorPy
  | SBadFields => Throw ValidationErrorPy
  | SFile s => Ok s
  end.

(** summary_stats_df, csv_app.py:51-63. *)
Definition summary_stats_df (F : experiment_files) (ids : list nat) : res frame :=
  do l <- foldM (fun stats_list u =>
    match stats_from_yaml (ef_stats F u) with
    | Ok s => Ok (stats_list ++ [stats_dict u s])%list
    | Throw FileNotFoundErrorPy | Throw YAMLErrorPy => Ok stats_list
    | Throw e => Throw e
    | UB u => UB u
    | OutOfFuel => OutOfFuel
    end) ids [];
  Ok (dataframe l).

(** write_heuristics_experiment_to_csv, csv_app.py:66-82: the table that is written. *)
Definition heuristics_csv (F : experiment_files) : res frame :=
  do vials <- read_experiment F;
  do results <- read_results F vials;
  experiment_summary_df vials results.

(** write_branch_cut_experiment_to_csv, csv_app.py:85-107: the table that is written. *)
Definition branch_cut_csv (F : experiment_files) : res frame :=
  do vials <- read_experiment F;
  do results <- read_results F vials;
  do experiment_df <- experiment_summary_df vials results;
  do summary_df <- summary_stats_df F (map fv_uuid vials);
  merge experiment_df summary_df "vial_uuid" "vial_uuid".

(** The calls of write_all_experiments_to_csv, csv_app.py:116-136, in order; for every one whether it is a
    table of branch and cut. *)
Definition csv_calls : list (dataset_name * experiment_name * bool) :=
  flat_map (fun d => [(d, CostCover, true); (d, TailingOff, true); (d, CompareHeuristics, false)]) [Londonaq; Tspwplib].

(** write_all_experiments_to_csv, csv_app.py:110-136: the tables written and, if it does not finish, the
    exception. *)
Fixpoint csv_all (lab : dataset_name -> experiment_name -> experiment_files) (calls : list (dataset_name * experiment_name * bool))
    : list (dataset_name * experiment_name * frame) * res unit :=
  match calls with
  | [] => ([], Ok tt)
  | (d, e, branch_cut) :: rest =>
    match (if branch_cut then branch_cut_csv (lab d e) else heuristics_csv (lab d e)) with
    | Ok f => let '(written, r) := csv_all lab rest in ((d, e, f) :: written, r)
    | Throw FileNotFoundErrorPy => csv_all lab rest
    | Throw x => ([], Throw x)
    | UB u => ([], UB u)
    | OutOfFuel => ([], OutOfFuel)
    end
  end.
