(** * Properties_Slurm: C64, the Slurm script of an experiment and the commands around it *)
From Verif Require Import Base P_Base M_Lab Spec_Lab P_Lab M_Slurm Spec_Slurm P_Slurm.
From Coq Require Import SpecFloat Permutation.
Open Scope nat_scope.

(** ** The script *)

(** The script asks for the right number of tasks, and for at least the time that the vials of one task may need
    (unless the cap is reached) and at most three hours more; no other file changes. *)
Theorem C64_script : forall D (B : Z) T only_missing overwrite vials (a b : Z),
  read_experiment_file D only_missing = Ok vials ->
  (Z.of_nat (length vials) < 2 ^ 53)%Z -> (0 < B < 2 ^ 53)%Z -> (0 <= fst T)%Z -> is_fraction T a b ->
  ed_script D = None \/ overwrite = true ->
  exists s, slurm D B T only_missing overwrite = Ok (mkDir (ed_vials D) (ed_missing D) (ed_results D) (Some s)) /\
    is_ceiling (Z.of_nat (length vials)) B (ss_last s + 1) /\ ss_size s = B /\ ss_missing s = only_missing /\
    (1 <= ss_hours s <= 172800)%Z /\
    (ss_hours s < 172800 -> B * a <= 3600 * ss_hours s * b)%Z /\ (3600 * (ss_hours s - 3) * b <= B * a)%Z.
Proof. exact slurm_ok. Qed.
Print Assumptions C64_script.

Definition five : list vial := [mkVial 0 5; mkVial 1 5; mkVial 2 9; mkVial 3 5; mkVial 4 7].
Definition five_dir : experiment_dir := mkDir (Some five) None (fun _ => NoFile) None.

(** Four hours (14400 seconds) for each of two vials: nine hours, three tasks; and a limit of 0.5 seconds. *)
Example C64_script_ex :
  is_fraction (14400, 0)%Z 14400 1 /\ is_fraction (1, -1)%Z 1 2 /\
  slurm five_dir 2 (14400, 0)%Z false false =
    Ok (mkDir (Some five) None (fun _ => NoFile) (Some (mkScript 9 2 2 false))) /\
  slurm five_dir 4 (1, -1)%Z false true =
    Ok (mkDir (Some five) None (fun _ => NoFile) (Some (mkScript 2 1 4 false))).
Proof. split; [split; reflexivity|]. split; [split; reflexivity|]. split; vm_compute; reflexivity. Qed.

(** The product of the model agrees with the IEEE 754 binary64 product of the standard library. *)
Example C64_float_ex : forallb (fun p =>
    let '(m, e) := py_mul (py_float (fst p)) (py_float (snd p)) in
    match SFmul 53 1024 (binary_normalize 53 1024 (fst p) 0 false) (binary_normalize 53 1024 (snd p) 0 false) with
    | S754_finite false m' e' =>
        let '(x, y) := frac (m, e) in let '(x', y') := frac (Zpos m', e') in Z.eqb (x * y') (x' * y)
    | S754_zero _ => Z.eqb m 0
    | _ => false
    end)
  [(10, 3); (0, 7); (2 ^ 53 - 1, 2 ^ 53 - 3); (2 ^ 60 + 12345, 7); (123456789123, 987654321987); (3, 2 ^ 53 - 1)]%Z = true.
Proof. vm_compute. reflexivity. Qed.

(** The name of the cap says two days in hours but its value is 172800, the seconds of two days: the script of 13 vials
    with the default limit of four hours asks for 53 hours. *)
Theorem C64_two_days_refuted : exists D (B : Z) T D' s,
  slurm D B T false false = Ok D' /\ ed_script D' = Some s /\ (ss_hours s > 2 * 24)%Z.
Proof.
  exists five_dir, 13%Z, (14400, 0)%Z. eexists. eexists. split; [vm_compute; reflexivity|]. split; [reflexivity|].
  vm_compute. reflexivity.
Qed.
Print Assumptions C64_two_days_refuted.

(** What makes the command raise: no file of vials, batch size 0, a script that may not be replaced. *)
Theorem C64_script_errors : forall D (B : Z) T (only_missing overwrite : bool),
  ((if only_missing then ed_missing D else ed_vials D) = None ->
     slurm D B T only_missing overwrite = Throw FileNotFoundErrorPy) /\
  (forall vials, (if only_missing then ed_missing D else ed_vials D) = Some vials ->
     slurm D 0 T only_missing overwrite = Throw ZeroDivisionErrorPy) /\
  (forall vials, (if only_missing then ed_missing D else ed_vials D) = Some vials ->
     (Z.of_nat (length vials) < 2 ^ 53)%Z -> (0 < B < 2 ^ 53)%Z -> (0 <= fst T)%Z ->
     ed_script D <> None -> slurm D B T only_missing false = Throw FileExistsErrorPy).
Proof.
  intros D B T om ow. unfold slurm, read_experiment_file. split; [|split].
  - intros ->. reflexivity.
  - intros vials ->. cbn [bind]. unfold get_nbatches_signed. cbn [Z.ltb Z.compare].
    unfold get_nbatches, py_div. destruct (frac (py_float (Z.of_nat (length vials)))) as (x, y). reflexivity.
  - intros vials -> L (B0 & BL) T0 S. cbn [bind].
    destruct (get_nbatches_ok (Z.of_nat (length vials)) B ltac:(lia) L B0 BL) as (n & En & _).
    rewrite signed_pos, En by exact B0. cbn [bind].
    destruct (expected_ok B T (conj B0 BL) T0) as (k & Ek & _). rewrite Ek. cbn [bind].
    destruct (ed_script D); [reflexivity|contradiction].
Qed.
Print Assumptions C64_script_errors.

Example C64_script_errors_ex :
  let D := mkDir (Some five) None (fun _ => NoFile) (Some (mkScript 9 2 2 false)) in
  slurm D 2 (14400, 0)%Z true true = Throw FileNotFoundErrorPy /\
  slurm D 0 (14400, 0)%Z false true = Throw ZeroDivisionErrorPy /\
  slurm D 2 (14400, 0)%Z false false = Throw FileExistsErrorPy.
Proof. repeat split; vm_compute; reflexivity. Qed.

(** A script without tasks is written for an experiment without vials and for a negative batch size, and Slurm rejects it. *)
Theorem C64_no_vials_refuted : exists D (B : Z) T D' s, (0 < B < 2 ^ 53)%Z /\
  slurm D B T false false = Ok D' /\ ed_script D' = Some s /\ sbatch_tasks s = None.
Proof.
  exists (mkDir (Some []) None (fun _ => NoFile) None), 2%Z, (14400, 0)%Z. eexists. eexists. split; [lia|].
  split; [vm_compute; reflexivity|]. split; reflexivity.
Qed.
Print Assumptions C64_no_vials_refuted.

Theorem C64_negative_size_refuted : exists D (B : Z) T D' s, (B < 0)%Z /\ ed_vials D <> Some [] /\
  slurm D B T false false = Ok D' /\ ed_script D' = Some s /\ (ss_hours s < 0)%Z /\ sbatch_tasks s = None.
Proof.
  exists five_dir, (-2)%Z, (14400, 0)%Z. eexists. eexists. split; [lia|]. split; [discriminate|].
  split; [vm_compute; reflexivity|]. split; [reflexivity|]. split; reflexivity.
Qed.
Print Assumptions C64_negative_size_refuted.

(** A negative batch size rounds towards zero: minus two and a half batches are minus two, so the last task is minus three; minus
    eight hours and one are minus seven. *)
Example C64_negative_size_ex : slurm five_dir (-2) (14400, 0)%Z false false =
    Ok (mkDir (Some five) None (fun _ => NoFile) (Some (mkScript (-7) (-3) (-2) false))) /\
  slurm five_dir (-5) (900, 0)%Z false false =
    Ok (mkDir (Some five) None (fun _ => NoFile) (Some (mkScript 0 (-2) (-5) false))).
Proof. split; vm_compute; reflexivity. Qed.

(** ** The tasks *)

(** Whatever the order of the tasks, the vials they run are those of the file, each once; afterwards every vial has
    its result and nothing else changed. *)
Theorem C64_tasks : forall load solve D (B : Z) T only_missing overwrite vials,
  read_experiment_file D only_missing = Ok vials -> vials <> [] ->
  (Z.of_nat (length vials) < 2 ^ 53)%Z -> (0 < B < 2 ^ 53)%Z -> (0 <= fst T)%Z ->
  ed_script D = None \/ overwrite = true ->
  (forall v, In v vials -> load v = Ok tt) -> NoDup (map v_uuid vials) ->
  exists D' s tasks, slurm D B T only_missing overwrite = Ok D' /\ ed_script D' = Some s /\ sbatch_tasks s = Some tasks /\
    forall order, Permutation order tasks ->
      (exists bs, mapM (fun k => batch_vials (ed_results D) vials (Z.of_nat k * B) B false) order = Ok bs /\
         Permutation (concat bs) vials) /\
      exists st, run_tasks load solve s order D' = Ok (mkDir (ed_vials D) (ed_missing D) st (Some s)) /\
        ran solve vials (ed_results D) st.
Proof.
  intros load solve D B T om ow vials R NE L BB T0 O LD N.
  assert (F : is_fraction T (fst (frac T)) (snd (frac T))).
  { destruct (frac_is T) as (F1 & F2). split; assumption. }
  destruct (slurm_ok D B T om ow vials _ _ R L BB T0 F O) as (s & Es & C & SS & SM & _).
  eexists. exists s, (seq 0 (Z.to_nat (ss_last s + 1))). split; [exact Es|]. split; [reflexivity|].
  rewrite <- SS in C. assert (B' : (0 < ss_size s)%Z) by lia.
  split; [exact (ceiling_tasks s vials B' C NE)|]. intros order P.
  assert (R' : read_experiment_file (mkDir (ed_vials D) (ed_missing D) (ed_results D) (Some s)) (ss_missing s) = Ok vials)
    by (rewrite SM; exact R).
  destruct (tasks_ok load solve s vials order _ R' B' C LD N P) as (Bs & Rn). rewrite SS in Bs.
  split; [exact Bs|exact Rn].
Qed.
Print Assumptions C64_tasks.

Definition five_load (v : vial) : res unit := Ok tt.
Definition five_solve (v : vial) : option Z := if Nat.eqb (v_uuid v) 3 then None else Some (6 + Z.of_nat (v_uuid v))%Z.
Definition five_after (r : res experiment_dir) : list result_file :=
  match r with Ok D => map (ed_results D) [0; 1; 2; 3; 4; 5] | _ => [] end.

Example C64_tasks_ex :
  sbatch_tasks (mkScript 9 2 2 false) = Some [0; 1; 2] /\ Permutation [2; 0; 1] [0; 1; 2] /\
  (forall v, In v five -> five_load v = Ok tt) /\ NoDup (map v_uuid five) /\
  five_after (run_tasks five_load five_solve (mkScript 9 2 2 false) [2; 0; 1] five_dir) =
    [ResultFile 6; ResultFile 7; ResultFile 8; NoFile; ResultFile 10; NoFile].
Proof.
  split; [reflexivity|]. split.
  { apply (Permutation_trans (perm_swap 0 2 [1])). apply perm_skip. apply perm_swap. }
  split; [reflexivity|]. split; [repeat constructor; cbn; lia|]. vm_compute. reflexivity.
Qed.

(** ** Running what is missing *)

(** missing, then slurm --only-missing-results, then the tasks in any order: the vials without a result are run, the
    results that were there stay, and only vials that cannot be solved are still missing. *)
Theorem C64_rerun : forall load solve D vials m (B : Z) T overwrite,
  ed_vials D = Some vials -> NoDup (map v_uuid vials) ->
  (forall v, In v vials -> load v = Ok tt) -> (forall v, In v vials -> ed_results D (v_uuid v) <> BadFields) ->
  (Z.of_nat (length vials) < 2 ^ 53)%Z -> (0 < B < 2 ^ 53)%Z -> (0 <= fst T)%Z ->
  ed_script D = None \/ overwrite = true -> selected (without_result (ed_results D)) vials m -> m <> [] ->
  exists D1 D2 s tasks, missing_command D = Ok D1 /\ slurm D1 B T true overwrite = Ok D2 /\ ed_script D2 = Some s /\
    sbatch_tasks s = Some tasks /\
    forall order, Permutation order tasks -> exists D3 m', run_tasks load solve s order D2 = Ok D3 /\
      ran solve m (ed_results D) (ed_results D3) /\
      (forall v, In v vials -> ~ without_result (ed_results D) v -> ed_results D3 (v_uuid v) = ed_results D (v_uuid v)) /\
      missing_vials (ed_results D3) vials = Ok m' /\
      selected (fun v => without_result (ed_results D) v /\ solve v = None) vials m'.
Proof. exact rerun_tasks. Qed.
Print Assumptions C64_rerun.

Definition some_done (u : nat) : result_file := match u with 0 => ResultFile 1 | 2 => NotJson | 4 => ResultFile 2 | _ => NoFile end.

Example C64_rerun_ex :
  let D := mkDir (Some five) None some_done None in
  let m := [mkVial 1 5; mkVial 2 9; mkVial 3 5] in
  selected (without_result (ed_results D)) five m /\ (forall v, In v five -> ed_results D (v_uuid v) <> BadFields) /\
  missing_command D = Ok (mkDir (Some five) (Some m) some_done None) /\
  slurm (mkDir (Some five) (Some m) some_done None) 2 (14400, 0)%Z true false =
    Ok (mkDir (Some five) (Some m) some_done (Some (mkScript 9 1 2 true))) /\
  five_after (run_tasks five_load five_solve (mkScript 9 1 2 true) [1; 0]
    (mkDir (Some five) (Some m) some_done (Some (mkScript 9 1 2 true)))) =
    [ResultFile 1; ResultFile 7; ResultFile 8; NoFile; ResultFile 2; NoFile].
Proof.
  split.
  { apply sel_drop; [intros [|]; discriminate|]. apply sel_keep; [left; reflexivity|].
    apply sel_keep; [right; reflexivity|]. apply sel_keep; [left; reflexivity|].
    apply sel_drop; [intros [|]; discriminate|]. apply sel_nil. }
  split.
  { intros v I. cbn in I. decompose [or] I; subst; try contradiction; discriminate. }
  split; [reflexivity|]. split; vm_compute; reflexivity.
Qed.

(** The tasks read the file of missing vials when they start: if missing is called again while the script runs, the file
    gets shorter and vials that could be solved are not run. *)
Theorem C64_remake_refuted : exists load solve D D1 D2 s D3 D4 D5 vials v,
  ed_vials D = Some vials /\ NoDup (map v_uuid vials) /\
  (forall v, In v vials -> load v = Ok tt /\ exists p, solve v = Some p) /\
  missing_command D = Ok D1 /\ slurm D1 2 (14400, 0)%Z true false = Ok D2 /\ ed_script D2 = Some s /\
  sbatch_tasks s = Some [0; 1; 2] /\ run_tasks load solve s [0] D2 = Ok D3 /\ missing_command D3 = Ok D4 /\
  run_tasks load solve s [1; 2] D4 = Ok D5 /\ In v vials /\ without_result (ed_results D5) v.
Proof.
  exists five_load, (fun _ => Some 6%Z), five_dir. do 6 eexists. exists five, (mkVial 2 9).
  split; [reflexivity|]. split; [repeat constructor; cbn; lia|].
  split; [intros; split; [reflexivity|eauto]|]. split; [reflexivity|]. split; [vm_compute; reflexivity|].
  split; [reflexivity|]. split; [reflexivity|]. split; [reflexivity|]. split; [reflexivity|]. split; [reflexivity|].
  split; [cbn; auto|]. left. reflexivity.
Qed.
Print Assumptions C64_remake_refuted.

(** ** One vial *)

(** The vial command runs the last vial with the identifier and changes no other file. *)
Theorem C64_vial : forall load solve D u vials v p,
  ed_vials D = Some vials -> last_with (fun w => v_uuid w = u) vials v -> load v = Ok tt -> solve v = Some p ->
  exists st, vial_command load solve D u = Ok ((u, p), mkDir (ed_vials D) (ed_missing D) st (ed_script D)) /\
    st u = ResultFile p /\ forall w, w <> u -> st w = ed_results D w.
Proof. exact vial_ok. Qed.
Print Assumptions C64_vial.

(** An unknown identifier is a ValueError; a run that fails is an IndexError, since there is no result to print. *)
Theorem C64_vial_errors : forall load solve D u vials, ed_vials D = Some vials ->
  (~ In u (map v_uuid vials) -> vial_command load solve D u = Throw ValueErrorPy) /\
  (forall v, last_with (fun w => v_uuid w = u) vials v -> load v = Ok tt -> solve v = None ->
     vial_command load solve D u = Throw IndexErrorPy).
Proof.
  intros load solve D u vials E. split.
  - exact (vial_absent load solve D u vials E).
  - intros v. exact (vial_fails load solve D u vials v E).
Qed.
Print Assumptions C64_vial_errors.

Example C64_vial_ex :
  last_with (fun w => v_uuid w = 2) five (mkVial 2 9) /\
  (exists st, vial_command five_load five_solve five_dir 2 = Ok ((2, 8%Z), mkDir (Some five) None st None) /\
     st 2 = ResultFile 8 /\ st 1 = NoFile) /\
  vial_command five_load five_solve five_dir 3 = Throw IndexErrorPy /\
  vial_command five_load five_solve five_dir 7 = Throw ValueErrorPy.
Proof.
  split.
  { exists [mkVial 0 5; mkVial 1 5], [mkVial 3 5; mkVial 4 7]. split; [reflexivity|]. split; [reflexivity|].
    intros y I. cbn in I. decompose [or] I; subst; try contradiction; discriminate. }
  split; [eexists; split; [reflexivity|split; reflexivity]|]. split; reflexivity.
Qed.
