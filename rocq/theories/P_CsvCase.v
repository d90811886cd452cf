(** * P_CsvCase: runs of the commands that write tables, and what a feasible row says *)
From Coq Require Import String QArith.
From Verif Require Import Base Graph Spec M_Python M_PyWrap M_RunAlg M_Compare M_Stats M_Csv Spec_RunAlg Spec_Csv P_Csv.
Open Scope nat_scope.
Open Scope string_scope.

Lemma feasible_is_tour : forall F vials f row (G : full_vial -> graph) (c p : full_vial -> list Z),
  proper_files F vials ->
  (forall v, In v vials -> (0 < dc_quota (fv_data v))%Z) ->
  (forall v r, In v vials -> ef_result F (fv_uuid v) = RFile r ->
    tour_result (G v) (c v) (p v) (dc_root (fv_data v)) (r_edges (st_result r)) (r_objective (st_result r)) (r_prize (st_result r)) \/
    empty_result (r_edges (st_result r)) (r_objective (st_result r)) (r_prize (st_result r))) ->
  heuristics_csv F = Ok f -> In row (f_rows f) -> rget row "feasible" = Some (CBool true) ->
  exists v t cost, In v vials /\ rget row "uuid" = Some (CUuid (fv_uuid v)) /\ rget row "objective" = Some (CInt cost) /\
    tour_thru (G v) (dc_root (fv_data v)) t /\ walk_cost (G v) (c v) t cost /\
    exists prize, tour_prize (p v) t prize /\ (dc_quota (fv_data v) <= prize)%Z.
Proof.
  intros F vials f row G c p P Q R E Hin Hf.
  destruct (feasible_rows F vials f row P E Hin) as (v & r & Hv & Er & Hu & Hp & Hok & Hno).
  destruct (Z_le_gt_dec (dc_quota (fv_data v)) (r_prize (st_result r))) as [L | L].
  - destruct (Hok L) as (_ & Ho & _).
    destruct (R v r Hv Er) as [(t & T & _ & C & Z0) | (_ & _ & Z0)].
    + exists v, t, (r_objective (st_result r)). repeat (split; [ assumption |]). exists (r_prize (st_result r)). auto.
    + pose proof (Q v Hv). rewrite Z0 in L. lia.
  - destruct (Hno ltac:(lia)) as (Hf' & _). rewrite Hf' in Hf. discriminate Hf.
Qed.

Definition the_frame (r : res frame) : frame := match r with Ok f => f | _ => mkFrame [] [] end.

Definition vial_of (u : nat) (quota : Z) (kappa : option Z) : full_vial :=
  mkFullVial u (mkData Tspwplib "EUC_2D" "st70" quota 1 (Some 5%Z) (Some "gen2") kappa (Some 0%Z))
    (exact_params 1 2 5 1 true true false SuurballesHeuristic None 10) (mkPre false false true false false).

Definition vials3 : list full_vial := [vial_of 1 7 (Some 5%Z); vial_of 2 7 None; vial_of 3 7 (Some 10%Z)].

Definition case_files : experiment_files :=
  mkExperimentFiles (Some vials3)
    (fun u => if Nat.eqb u 1 then RFile (mkStored 1 (mkResult 12 10 [(1, 2); (2, 3); (3, 1)]) 60 100)
              else if Nat.eqb u 2 then RNotJson
              else RFile (mkStored 3 (mkResult 4 6 [(1, 2); (2, 4); (4, 1)]) 0 1))
    (fun u => if Nat.eqb u 1 then SFile (mkSummary 11 (25 # 2) (25 # 2) 0 0 0 0 0 1 2 3)
              else if Nat.eqb u 2 then SFile (mkSummary 11 (1 # 1) (2 # 1) 0 0 0 0 0 1 2 3) else SNotYaml).

Definition no_files : experiment_files := mkExperimentFiles None (fun _ => RNoFile) (fun _ => SNoFile).

Definition case_lab (d : dataset_name) (e : experiment_name) : experiment_files :=
  match d, e with
  | Londonaq, CompareHeuristics => case_files
  | Tspwplib, CostCover => case_files
  | _, _ => no_files
  end.

Definition not_run : experiment_files := mkExperimentFiles (Some vials3) (fun _ => RNoFile) (fun _ => SNoFile).

Definition stopped_lab (d : dataset_name) (e : experiment_name) : experiment_files :=
  match d, e with
  | Tspwplib, CostCover => not_run
  | Tspwplib, CompareHeuristics => case_files
  | _, _ => no_files
  end.

Lemma vials3_in : forall v, In v vials3 -> v = vial_of 1 7 (Some 5%Z) \/ v = vial_of 2 7 None \/ v = vial_of 3 7 (Some 10%Z).
Proof. intros v [<- | [<- | [<- | []]]]; auto. Qed.

Lemma case_proper : proper_files case_files vials3.
Proof.
  split.
  - reflexivity.
  - repeat constructor; cbn; intuition discriminate.
  - intros v r Hv. destruct (vials3_in v Hv) as [-> | [-> | ->]]; intros E; try discriminate E; injection E as <-; reflexivity.
  - intros v Hv. destruct (vials3_in v Hv) as [-> | [-> | ->]]; discriminate.
  - intros v Hv. destruct (vials3_in v Hv) as [-> | [-> | ->]]; split; discriminate.
Qed.

Lemma not_run_proper : proper_files not_run vials3.
Proof.
  split; try discriminate.
  - reflexivity.
  - repeat constructor; cbn; intuition discriminate.
  - split; discriminate.
Qed.

Lemma case_all : proper_files case_files vials3 /\ with_result case_files vials3 <> [] /\
  (exists v s, In v vials3 /\ ef_stats case_files (fv_uuid v) = SFile s) /\
  (exists f, branch_cut_csv case_files = Ok f /\ List.length (f_rows f) = 1 /\ List.length (f_cols f) = 53 /\
    map (fun r => (rget r "uuid", rget r "kappa", rget r "objective", rget r "feasible", rget r "overshoot", rget r "lower_bound")) (f_rows f) =
    [(Some (CUuid 1), Some (CInt 5), Some (CInt 12), Some (CBool true), Some (CInt 3), Some (CNum (25 # 2)))]) /\
  (exists f, heuristics_csv case_files = Ok f /\
    map (fun r => (rget r "uuid", rget r "objective", rget r "prize", rget r "feasible", rget r "overshoot", rget r "duration")) (f_rows f) =
    [(Some (CUuid 1), Some (CInt 12), Some (CInt 10), Some (CBool true), Some (CInt 3), Some (CTime 40));
     (Some (CUuid 3), Some CNaN, Some (CInt 6), Some (CBool false), Some CNaN, Some (CTime 1))]).
Proof.
  split; [ exact case_proper |]. split; [ discriminate |].
  split; [ eexists; eexists; split; [ left; reflexivity | reflexivity ] |].
  split.
  - exists (the_frame (branch_cut_csv case_files)). split; [ vm_compute; reflexivity |].
    split; [ vm_compute; reflexivity |]. split; vm_compute; reflexivity.
  - exists (the_frame (heuristics_csv case_files)). split; vm_compute; reflexivity.
Qed.

Lemma case_more : (forall v, In v vials3 -> (0 < dc_quota (fv_data v))%Z) /\
  branch_cut_csv (mkExperimentFiles (Some vials3) (ef_result case_files)
    (fun u => if Nat.eqb u 2 then SNotMapping else SNoFile)) = Throw TypeErrorPy /\
  branch_cut_csv (mkExperimentFiles (Some vials3) (ef_result case_files)
    (fun u => if Nat.eqb u 1 then SNotYaml else if Nat.eqb u 2 then SBadFields else SNotMapping)) = Throw ValidationErrorPy /\
  heuristics_csv (mkExperimentFiles (Some vials3) (fun u => if Nat.eqb u 2 then RBadFields else RNoFile) (ef_stats case_files)) =
    Throw ValidationErrorPy.
Proof.
  split; [| split; [| split]; vm_compute; reflexivity ].
  intros v Hv. destruct (vials3_in v Hv) as [-> | [-> | ->]]; reflexivity.
Qed.

Lemma case_all_tables : Forall (call_ready case_lab) tables_in_order /\
  map fst (fst (csv_all case_lab csv_calls)) = [(Londonaq, CompareHeuristics); (Tspwplib, CostCover)].
Proof.
  split; [| vm_compute; reflexivity ].
  unfold tables_in_order. repeat apply Forall_cons; try apply Forall_nil; try (left; reflexivity).
  - right. exists vials3. split; [ exact case_proper |]. split; discriminate.
  - right. exists vials3. split; [ exact case_proper |]. split; [ discriminate |].
    intros _. eexists; eexists; split; [ left; reflexivity | reflexivity ].
Qed.

Lemma all_stops : exists lab vials, proper_files (lab Tspwplib CostCover) vials /\
  with_result (lab Tspwplib CostCover) vials = [] /\ csv_all lab csv_calls = ([], Throw KeyErrorPy) /\
  exists f, heuristics_csv (lab Tspwplib CompareHeuristics) = Ok f /\ f_rows f <> [].
Proof.
  exists stopped_lab, vials3. split; [ exact not_run_proper |]. split; [ reflexivity |]. split; [ vm_compute; reflexivity |].
  exists (the_frame (heuristics_csv case_files)). split; [ vm_compute; reflexivity |]. vm_compute. discriminate.
Qed.

Lemma result_dropped : exists F vials f v r, proper_files F vials /\ branch_cut_csv F = Ok f /\ In v vials /\
  ef_result F (fv_uuid v) = RFile r /\ forall row, In row (f_rows f) -> rget row "uuid" <> Some (CUuid (fv_uuid v)).
Proof.
  exists case_files, vials3, (the_frame (branch_cut_csv case_files)), (vial_of 3 7 (Some 10%Z)). eexists.
  split; [ exact case_proper |]. split; [ vm_compute; reflexivity |]. split; [ right; right; left; reflexivity |].
  split; [ reflexivity |]. vm_compute. intros row [<- | []]. discriminate.
Qed.

Lemma same_identifier : exists F vials f, ef_vials F = Some vials /\ List.length vials = 2 /\
  heuristics_csv F = Ok f /\ List.length (f_rows f) = 4.
Proof.
  set (F := mkExperimentFiles (Some [vial_of 1 7 None; vial_of 1 8 None]) (ef_result case_files) (ef_stats case_files)).
  exists F. eexists. exists (the_frame (heuristics_csv F)).
  split; [ reflexivity |]. split; [ reflexivity |]. split; vm_compute; reflexivity.
Qed.

Lemma empty_feasible : exists F vials f row, proper_files F vials /\ heuristics_csv F = Ok f /\
  In row (f_rows f) /\ rget row "feasible" = Some (CBool true) /\ rget row "objective" = Some (CInt 0) /\
  rget row "edge_list" = Some (CEdges []).
Proof.
  set (F := mkExperimentFiles (Some [vial_of 1 0 None]) (fun _ => RFile (mkStored 1 (mkResult 0 0 []) 0 1)) (fun _ => SNoFile)).
  exists F, [vial_of 1 0 None], (the_frame (heuristics_csv F)), (hd [] (f_rows (the_frame (heuristics_csv F)))). split.
  { split; try discriminate.
    - reflexivity.
    - repeat constructor; cbn; tauto.
    - intros v r [<- | []] E. injection E as <-. reflexivity.
    - split; discriminate. }
  split; [ vm_compute; reflexivity |]. split; [ vm_compute; left; reflexivity |].
  split; [ vm_compute; reflexivity |]. split; vm_compute; reflexivity.
Qed.
