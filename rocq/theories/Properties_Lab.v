(** * Properties_Lab: C43, the batches of an experiment and the vial filters *)
From Verif Require Import Base P_Base M_Lab Spec_Lab P_Lab.
From Coq Require Import SpecFloat.
Open Scope nat_scope.

(** ** The number of batches *)

(** For fewer than 2^53 vials the number of batches is the exact ceiling, in spite of the floats. *)
Theorem C43_nbatches : forall n b : Z, (0 <= n < 2 ^ 53)%Z -> (0 < b < 2 ^ 53)%Z ->
  exists k, get_nbatches n b = Ok k /\ is_ceiling n b k.
Proof. intros n b (N & L) (B & LB). exact (get_nbatches_ok n b N L B LB). Qed.
Print Assumptions C43_nbatches.

Example C43_nbatches_ex : get_nbatches 10 3 = Ok 4%Z /\ get_nbatches 9 3 = Ok 3%Z /\ get_nbatches 0 3 = Ok 0%Z /\
  get_nbatches (2 ^ 53 - 1) (2 ^ 53 - 2) = Ok 2%Z.
Proof. vm_compute. auto. Qed.

(** The rounding of the model agrees with the IEEE 754 binary64 division of the standard library. *)
Definition sf (z : Z) : spec_float := binary_normalize 53 1024 z 0 false.
Definition same_float (x : Z * Z) (y : spec_float) : bool :=
  match y with
  | S754_finite false m e => let '(a, b) := frac x in let '(c, d) := frac (Zpos m, e) in Z.eqb (a * d) (c * b)
  | S754_zero _ => Z.eqb (fst x) 0
  | _ => false
  end.

Example C43_float_ex : forallb (fun p =>
    match py_div (py_float (fst p)) (py_float (snd p)) with
    | Ok x => same_float x (SFdiv 53 1024 (sf (fst p)) (sf (snd p)))
    | _ => false
    end)
  [(10, 3); (1, 3); (2, 3); (0, 7); (9, 3); (2 ^ 53 + 1, 3); (2 ^ 60 + 12345, 7); (2 ^ 53 - 1, 2 ^ 53 - 3);
   (1, 2 ^ 53); (123456789, 1000); (2 ^ 70 + 1, 2 ^ 54 + 3)]%Z = true.
Proof. vm_compute. reflexivity. Qed.

(** Beyond the range a batch can be lost. *)
Theorem C43_nbatches_large_refuted : exists n b k : Z, (0 <= n)%Z /\ (0 < b)%Z /\
  get_nbatches n b = Ok k /\ ~ is_ceiling n b k.
Proof.
  exists (2 ^ 53 + 1)%Z, 1%Z, (2 ^ 53)%Z. split; [lia|]. split; [lia|]. split; [vm_compute; reflexivity|].
  intros (_ & H). lia.
Qed.
Print Assumptions C43_nbatches_large_refuted.

(** Batch size 0 is an exception (get_nbatches itself does not check it). *)
Theorem C43_batch_size_zero : forall n : Z, get_nbatches n 0 = Throw ZeroDivisionErrorPy.
Proof.
  intros n. unfold get_nbatches, py_div. destruct (frac (py_float n)) as (a, b). reflexivity.
Qed.
Print Assumptions C43_batch_size_zero.

(** ** Batches *)

(** The batches at consecutive offsets, put together, are the list of vials. *)
Theorem C43_batches_cover : forall st vials (b : Z),
  (Z.of_nat (length vials) < 2 ^ 53)%Z -> (0 < b < 2 ^ 53)%Z ->
  exists n bs, get_nbatches (Z.of_nat (length vials)) b = Ok n /\
    mapM (fun k => batch_vials st vials (Z.of_nat k * b) b false) (seq 0 (Z.to_nat n)) = Ok bs /\
    concat bs = vials.
Proof.
  intros st vials b L (B & LB).
  destruct (get_nbatches_ok (Z.of_nat (length vials)) b ltac:(lia) L B LB) as (n & E & C).
  destruct (batches_cover st vials b n B E C) as (bs & EB & CB). exists n, bs. auto.
Qed.
Print Assumptions C43_batches_cover.

(** Running all batches is the same as running the whole experiment: same results in the same
    order, same files, same exceptions. *)
Theorem C43_run_all_batches : forall load solve vials (b : Z) st,
  (Z.of_nat (length vials) < 2 ^ 53)%Z -> (0 < b < 2 ^ 53)%Z ->
  run_all_batches load solve vials b false st = run_experiment_from_vial_list load solve vials st.
Proof. exact run_all_ok. Qed.
Print Assumptions C43_run_all_batches.

(** Every vial is run once: a vial that can be solved has its result and its file, one that cannot
    keeps what it had, and no other file changes. *)
Theorem C43_each_vial_once : forall load solve vials (b : Z) st,
  (Z.of_nat (length vials) < 2 ^ 53)%Z -> (0 < b < 2 ^ 53)%Z ->
  (forall v, In v vials -> load v = Ok tt) -> NoDup (map v_uuid vials) ->
  exists results st', run_all_batches load solve vials b false st = Ok (results, st') /\
    (forall u p, In (u, p) results <-> exists v, In v vials /\ v_uuid v = u /\ solve v = Some p) /\
    NoDup (map fst results) /\
    (forall v, In v vials ->
       st' (v_uuid v) = match solve v with Some p => ResultFile p | None => st (v_uuid v) end) /\
    (forall u, ~ In u (map v_uuid vials) -> st' u = st u).
Proof.
  intros load solve vials b st L B LD N. rewrite run_all_ok by assumption. exact (run_list_ok load solve vials LD N st).
Qed.
Print Assumptions C43_each_vial_once.

Definition lab_vials : list vial := [mkVial 0 5; mkVial 1 5; mkVial 2 9; mkVial 3 5; mkVial 4 7].
Definition lab_solve (v : vial) : option Z := if Nat.eqb (v_uuid v) 3 then None else Some 6%Z.
Definition lab_load (v : vial) : res unit := Ok tt.

Example C43_batches_ex :
  (Z.of_nat (length lab_vials) < 2 ^ 53)%Z /\ NoDup (map v_uuid lab_vials) /\
  (forall v, In v lab_vials -> lab_load v = Ok tt) /\
  get_nbatches (Z.of_nat (length lab_vials)) 2 = Ok 3%Z /\
  mapM (fun k => batch_vials (fun _ => NoFile) lab_vials (Z.of_nat k * 2) 2 false) (seq 0 3) =
    Ok [[mkVial 0 5; mkVial 1 5]; [mkVial 2 9; mkVial 3 5]; [mkVial 4 7]] /\
  exists st', run_all_batches lab_load lab_solve lab_vials 2 false (fun _ => NoFile) =
    Ok ([(0, 6%Z); (1, 6%Z); (2, 6%Z); (4, 6%Z)], st') /\ st' 3 = NoFile /\ st' 4 = ResultFile 6.
Proof.
  split; [cbn; lia|]. split; [repeat constructor; cbn; lia|]. split; [reflexivity|].
  split; [vm_compute; reflexivity|]. split; [vm_compute; reflexivity|].
  rewrite run_all_ok by (cbn; lia). eexists. split; [reflexivity|]. split; reflexivity.
Qed.

(** ** Filters *)

(** missing_vials keeps, in order, exactly the vials without a readable result. *)
Theorem C43_missing_vials : forall st vials, (forall v, In v vials -> st (v_uuid v) <> BadFields) ->
  exists m, missing_vials st vials = Ok m /\ selected (without_result st) vials m.
Proof. exact missing_ok. Qed.
Print Assumptions C43_missing_vials.

(** infeasible_vials keeps, in order, exactly the vials whose result is below the quota. *)
Theorem C43_infeasible_vials : forall st vials,
  (forall v, In v vials -> st (v_uuid v) <> BadFields /\ st (v_uuid v) <> NotJson) ->
  exists m, infeasible_vials st vials = Ok m /\ selected (result_below_quota st) vials m.
Proof. exact infeasible_ok. Qed.
Print Assumptions C43_infeasible_vials.

Definition lab_store (u : nat) : result_file :=
  match u with 0 => ResultFile 4 | 1 => NoFile | 2 => ResultFile 9 | 3 => NoFile | _ => ResultFile 6 end.

Example C43_filters_ex :
  (forall v, In v lab_vials -> lab_store (v_uuid v) <> BadFields /\ lab_store (v_uuid v) <> NotJson) /\
  missing_vials lab_store lab_vials = Ok [mkVial 1 5; mkVial 3 5] /\
  infeasible_vials lab_store lab_vials = Ok [mkVial 0 5; mkVial 4 7].
Proof.
  split; [|split; reflexivity].
  intros v I. cbn in I. decompose [or] I; subst; try contradiction; cbn; split; discriminate.
Qed.

(** A truncated file (not JSON) makes infeasible_vials raise, although missing_vials handles it. *)
Theorem C43_infeasible_raises_refuted : exists st vials m,
  missing_vials st vials = Ok m /\ infeasible_vials st vials = Throw JSONDecodeErrorPy.
Proof.
  exists (fun u => if Nat.eqb u 0 then NotJson else ResultFile 6), lab_vials, [mkVial 0 5]. split; reflexivity.
Qed.
Print Assumptions C43_infeasible_raises_refuted.

(** A file with other fields makes both raise. *)
Theorem C43_bad_fields_raise_refuted : exists st vials,
  missing_vials st vials = Throw ValidationErrorPy /\ infeasible_vials st vials = Throw ValidationErrorPy.
Proof.
  exists (fun u => if Nat.eqb u 0 then BadFields else ResultFile 6), lab_vials. split; reflexivity.
Qed.
Print Assumptions C43_bad_fields_raise_refuted.

(** ** Running what is missing *)

(** The file of missing vials, written once and then run in batches (main_app.py), leaves only
    the vials missing that cannot be solved, and does not touch the results that were there. *)
Theorem C43_rerun_missing : forall load solve vials m (b : Z) st, NoDup (map v_uuid vials) ->
  (forall v, In v vials -> load v = Ok tt) -> missing_vials st vials = Ok m ->
  (forall v, In v vials -> st (v_uuid v) <> BadFields) ->
  (Z.of_nat (length vials) < 2 ^ 53)%Z -> (0 < b < 2 ^ 53)%Z ->
  exists results st', run_all_batches load solve m b false st = Ok (results, st') /\
    exists m', missing_vials st' vials = Ok m' /\
      selected (fun v => without_result st v /\ solve v = None) vials m' /\
    (forall v, In v vials -> ~ without_result st v -> st' (v_uuid v) = st (v_uuid v)).
Proof. exact rerun_ok. Qed.
Print Assumptions C43_rerun_missing.

Example C43_rerun_ex : missing_vials lab_store lab_vials = Ok [mkVial 1 5; mkVial 3 5] /\
  exists st', run_all_batches lab_load lab_solve [mkVial 1 5; mkVial 3 5] 1 false lab_store = Ok ([(1, 6%Z)], st') /\
    missing_vials st' lab_vials = Ok [mkVial 3 5].
Proof.
  split; [reflexivity|]. rewrite run_all_ok by (cbn; lia). eexists. split; reflexivity.
Qed.

(** With only_missing_results=True the list of missing vials is computed anew for every batch and
    gets shorter, while the offsets grow: solvable vials are skipped. *)
Theorem C43_only_missing_batches_refuted : exists load solve vials st results st' v,
  (forall v, In v vials -> load v = Ok tt /\ exists p, solve v = Some p) /\ NoDup (map v_uuid vials) /\
  run_all_batches load solve vials 2 true st = Ok (results, st') /\
  In v vials /\ without_result st' v.
Proof.
  assert (H : match run_all_batches lab_load (fun _ => Some 6%Z) lab_vials 2 true (fun _ => NoFile) with
    | Ok (r, st') => r = [(0, 6%Z); (1, 6%Z); (4, 6%Z)] /\ st' 2 = NoFile
    | _ => False
    end) by (vm_compute; auto).
  destruct (run_all_batches lab_load (fun _ => Some 6%Z) lab_vials 2 true (fun _ => NoFile)) as [(r & st')| | |] eqn:E;
    [|contradiction|contradiction|contradiction].
  destruct H as (_ & M).
  exists lab_load, (fun _ => Some 6%Z), lab_vials, (fun _ => NoFile), r, st', (mkVial 2 9).
  split; [intros; split; [reflexivity|eauto]|]. split; [repeat constructor; cbn; lia|]. split; [exact E|].
  split; [cbn; auto|]. left. exact M.
Qed.
Print Assumptions C43_only_missing_batches_refuted.
