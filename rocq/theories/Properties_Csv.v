(** * Properties_Csv: C63, the tables of results *)
From Coq Require Import String QArith.
From Verif Require Import Base Graph Spec M_Python M_PyWrap M_RunAlg M_Compare M_Stats M_Csv Spec_RunAlg Spec_Csv P_Csv P_CsvCase.
Open Scope nat_scope.
Open Scope string_scope.

(** C63: a vial becomes a row in which no setting replaces another. *)
Theorem C63_flat_dict : forall v,
  flat_dict_from_vial v = combine vial_columns (vial_cells v) /\ NoDup vial_columns /\
  List.length vial_columns = List.length (vial_cells v).
Proof. exact flat_dict_all. Qed.
Print Assumptions C63_flat_dict.

(** C63: the table of an experiment has one row for every vial with a result, in the order of the vials, with
    every setting and every field of its own result under its name. *)
Theorem C63_heuristics : forall F vials, proper_files F vials -> with_result F vials <> [] ->
  heuristics_csv F = Ok (heuristics_table F vials).
Proof. exact heuristics_ok. Qed.
Print Assumptions C63_heuristics.

(** C63: the table of branch and cut has one row for every vial with a result and statistics. *)
Theorem C63_branch_cut : forall F vials, proper_files F vials -> with_result F vials <> [] ->
  (exists v s, In v vials /\ ef_stats F (fv_uuid v) = SFile s) ->
  branch_cut_csv F = Ok (branch_cut_table F vials).
Proof. exact branch_cut_ok. Qed.
Print Assumptions C63_branch_cut.

(** C63: a cost is given exactly for results that collect the quota. *)
Theorem C63_feasible : forall F vials f row, proper_files F vials -> heuristics_csv F = Ok f -> In row (f_rows f) ->
  exists v r, In v vials /\ ef_result F (fv_uuid v) = RFile r /\ rget row "uuid" = Some (CUuid (fv_uuid v)) /\
    rget row "prize" = Some (CInt (r_prize (st_result r))) /\
    ((dc_quota (fv_data v) <= r_prize (st_result r))%Z ->
      rget row "feasible" = Some (CBool true) /\ rget row "objective" = Some (CInt (r_objective (st_result r))) /\
      rget row "overshoot" = Some (CInt (r_prize (st_result r) - dc_quota (fv_data v)))) /\
    ((r_prize (st_result r) < dc_quota (fv_data v))%Z ->
      rget row "feasible" = Some (CBool false) /\ rget row "objective" = Some CNaN /\ rget row "overshoot" = Some CNaN).
Proof. exact feasible_rows. Qed.
Print Assumptions C63_feasible.

(** C63: if every result is that of a tour or empty (as C61 proves) and every quota is positive, a row that
    is called feasible gives the cost of a tour through the root that collects the quota. *)
Theorem C63_feasible_is_tour : forall F vials f row (G : full_vial -> graph) (c p : full_vial -> list Z),
  proper_files F vials ->
  (forall v, In v vials -> (0 < dc_quota (fv_data v))%Z) ->
  (forall v r, In v vials -> ef_result F (fv_uuid v) = RFile r ->
    tour_result (G v) (c v) (p v) (dc_root (fv_data v)) (r_edges (st_result r)) (r_objective (st_result r)) (r_prize (st_result r)) \/
    empty_result (r_edges (st_result r)) (r_objective (st_result r)) (r_prize (st_result r))) ->
  heuristics_csv F = Ok f -> In row (f_rows f) -> rget row "feasible" = Some (CBool true) ->
  exists v t cost, In v vials /\ rget row "uuid" = Some (CUuid (fv_uuid v)) /\ rget row "objective" = Some (CInt cost) /\
    tour_thru (G v) (dc_root (fv_data v)) t /\ walk_cost (G v) (c v) t cost /\
    exists prize, tour_prize (p v) t prize /\ (dc_quota (fv_data v) <= prize)%Z.
Proof. exact feasible_is_tour. Qed.
Print Assumptions C63_feasible_is_tour.

(** C63: without a positive quota it does not: a result without any edge is called feasible, at cost 0. *)
Theorem C63_feasible_is_tour_refuted : exists F vials f row, proper_files F vials /\ heuristics_csv F = Ok f /\
  In row (f_rows f) /\ rget row "feasible" = Some (CBool true) /\ rget row "objective" = Some (CInt 0) /\
  rget row "edge_list" = Some (CEdges []).
Proof. exact empty_feasible. Qed.
Print Assumptions C63_feasible_is_tour_refuted.

(** C63: an experiment none of whose vials has a result is no empty table but a KeyError. *)
Theorem C63_no_results : forall F vials, ef_vials F = Some vials ->
  (forall v, In v vials -> ef_result F (fv_uuid v) = RNoFile \/ ef_result F (fv_uuid v) = RNotJson) ->
  heuristics_csv F = Throw KeyErrorPy /\ branch_cut_csv F = Throw KeyErrorPy.
Proof. exact no_results. Qed.
Print Assumptions C63_no_results.

(** C63: so is a table of branch and cut without statistics. *)
Theorem C63_no_stats : forall F vials, proper_files F vials -> with_result F vials <> [] ->
  (forall v, In v vials -> ef_stats F (fv_uuid v) = SNoFile \/ ef_stats F (fv_uuid v) = SNotYaml) ->
  branch_cut_csv F = Throw KeyErrorPy.
Proof. exact no_stats. Qed.
Print Assumptions C63_no_stats.

(** C63: one result with wrong fields stops the table. *)
Theorem C63_bad_result : forall F vials v, ef_vials F = Some vials -> In v vials -> ef_result F (fv_uuid v) = RBadFields ->
  heuristics_csv F = Throw ValidationErrorPy /\ branch_cut_csv F = Throw ValidationErrorPy.
Proof. exact bad_result. Qed.
Print Assumptions C63_bad_result.

(** C63: so does the first file of statistics that is empty (or no mapping), with a TypeError, or has wrong fields,
    although a missing one and one that is not YAML are passed over. *)
Theorem C63_bad_stats : forall F vials pre v post,
  proper_files (mkExperimentFiles (ef_vials F) (ef_result F) (fun _ => SNoFile)) vials ->
  with_result F vials <> [] -> vials = (pre ++ v :: post)%list ->
  Forall (fun w => passed_over_or_read (ef_stats F (fv_uuid w))) pre ->
  (ef_stats F (fv_uuid v) = SNotMapping -> branch_cut_csv F = Throw TypeErrorPy) /\
  (ef_stats F (fv_uuid v) = SBadFields -> branch_cut_csv F = Throw ValidationErrorPy).
Proof. exact bad_stats_csv. Qed.
Print Assumptions C63_bad_stats.

(** C63: the table of branch and cut does not contain every result. *)
Theorem C63_every_result_refuted : exists F vials f v r, proper_files F vials /\ branch_cut_csv F = Ok f /\ In v vials /\
  ef_result F (fv_uuid v) = RFile r /\ forall row, In row (f_rows f) -> rget row "uuid" <> Some (CUuid (fv_uuid v)).
Proof. exact result_dropped. Qed.
Print Assumptions C63_every_result_refuted.

(** C63: two vials with one identifier give four rows. *)
Theorem C63_distinct_refuted : exists F vials f, ef_vials F = Some vials /\ List.length vials = 2 /\
  heuristics_csv F = Ok f /\ List.length (f_rows f) = 4.
Proof. exact same_identifier. Qed.
Print Assumptions C63_distinct_refuted.

(** C63: the command that writes all tables writes those of the experiments that exist, if every one of them
    has a result (and statistics). *)
Theorem C63_all : forall lab, Forall (call_ready lab) tables_in_order ->
  csv_all lab csv_calls = (flat_map (call_tables lab) tables_in_order, Ok tt).
Proof. exact csv_all_tables. Qed.
Print Assumptions C63_all.

(** C63: an experiment that was created but not run stops it before the next table. *)
Theorem C63_all_refuted : exists lab vials, proper_files (lab Tspwplib CostCover) vials /\
  with_result (lab Tspwplib CostCover) vials = [] /\ csv_all lab csv_calls = ([], Throw KeyErrorPy) /\
  exists f, heuristics_csv (lab Tspwplib CompareHeuristics) = Ok f /\ f_rows f <> [].
Proof. exact all_stops. Qed.
Print Assumptions C63_all_refuted.

(** *** Cases *)

Example C63_case : proper_files case_files vials3 /\ with_result case_files vials3 <> [] /\
  (exists v s, In v vials3 /\ ef_stats case_files (fv_uuid v) = SFile s) /\
  (exists f, branch_cut_csv case_files = Ok f /\ List.length (f_rows f) = 1 /\ List.length (f_cols f) = 53 /\
    map (fun r => (rget r "uuid", rget r "kappa", rget r "objective", rget r "feasible", rget r "overshoot", rget r "lower_bound")) (f_rows f) =
    [(Some (CUuid 1), Some (CInt 5), Some (CInt 12), Some (CBool true), Some (CInt 3), Some (CNum (25 # 2)))]) /\
  (exists f, heuristics_csv case_files = Ok f /\
    map (fun r => (rget r "uuid", rget r "objective", rget r "prize", rget r "feasible", rget r "overshoot", rget r "duration")) (f_rows f) =
    [(Some (CUuid 1), Some (CInt 12), Some (CInt 10), Some (CBool true), Some (CInt 3), Some (CTime 40));
     (Some (CUuid 3), Some CNaN, Some (CInt 6), Some (CBool false), Some CNaN, Some (CTime 1))]).
Proof. exact case_all. Qed.

(** The other hypotheses: all quotas are positive; a file of statistics that is empty. *)
Example C63_case2 : (forall v, In v vials3 -> (0 < dc_quota (fv_data v))%Z) /\
  branch_cut_csv (mkExperimentFiles (Some vials3) (ef_result case_files)
    (fun u => if Nat.eqb u 2 then SNotMapping else SNoFile)) = Throw TypeErrorPy /\
  branch_cut_csv (mkExperimentFiles (Some vials3) (ef_result case_files)
    (fun u => if Nat.eqb u 1 then SNotYaml else if Nat.eqb u 2 then SBadFields else SNotMapping)) = Throw ValidationErrorPy /\
  heuristics_csv (mkExperimentFiles (Some vials3) (fun u => if Nat.eqb u 2 then RBadFields else RNoFile) (ef_stats case_files)) =
    Throw ValidationErrorPy.
Proof. exact case_more. Qed.

Example C63_case_all : Forall (call_ready case_lab) tables_in_order /\
  map fst (fst (csv_all case_lab csv_calls)) = [(Londonaq, CompareHeuristics); (Tspwplib, CostCover)].
Proof. exact case_all_tables. Qed.
