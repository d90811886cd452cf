(** * M_Lab: batches, missing and infeasible vials (pctsp/lab/lab.py, pctsp/vial/result.py,
    pctsp/apps/main_app.py). *)
From Verif Require Import Base.
Open Scope Z_scope.

(** Round a positive rational [num/den] to 53 significant bits, ties to even: the result is
    [(m, e)] for the value m * 2^e (IEEE 754 binary64 without the limits of the exponent,
    which lab.py:292 cannot reach for lists that fit into memory). *)
Definition round53 (num den : Z) : Z * Z :=
  let e0 := Z.log2 num - Z.log2 den - 53 in
  let scaled e := if e <=? 0 then (num * 2 ^ (- e), den) else (num, den * 2 ^ e) in
  let e := let '(a, b) := scaled e0 in if 2 ^ 53 <=? a / b then e0 + 1 else e0 in
  let '(a, b) := scaled e in
  let q := a / b in
  let r := a mod b in
  let m := if 2 * r <? b then q else if b <? 2 * r then q + 1 else if Z.even q then q else q + 1 in
  (m, e).

(** The rational value of a pair [(m, e)] as a fraction (lab.py:292). *)
Definition frac (f : Z * Z) : Z * Z :=
  let '(m, e) := f in if e <=? 0 then (m, 2 ^ (- e)) else (m * 2 ^ e, 1).

(** [float(n)] for a non-negative integer (lab.py:292; Python). *)
Definition py_float (n : Z) : Z * Z := if n =? 0 then (0, 0) else round53 n 1.

(** [x / y] of two non-negative floats (lab.py:292; Python): ZeroDivisionError for [y = 0]. *)
Definition py_div (x y : Z * Z) : res (Z * Z) :=
  let '(a, b) := frac x in
  let '(c, d) := frac y in
  if c =? 0 then Throw ZeroDivisionErrorPy
  else if a =? 0 then Ok (0, 0)
  else Ok (round53 (a * d) (b * c)).

(** [math.ceil] of a float (lab.py:292; Python). *)
Definition py_ceil (x : Z * Z) : Z := let '(a, b) := frac x in - ((- a) / b).

(** get_nbatches, lab.py:290-292. *)
Definition get_nbatches (num_vials batch_size : Z) : res Z :=
  do q <- py_div (py_float num_vials) (py_float batch_size);
  Ok (py_ceil q).

(** The check of the nbatches command, main_app.py:235-245. *)
Definition nbatches_app (num_vials batch_size : Z) : res Z :=
  if batch_size <=? 0 then Throw ValueErrorPy else get_nbatches num_vials batch_size.

(** [l[i:j]] (lab.py:101; Python): negative indices count from the end, and both are clipped. *)
Definition py_slice {A} (l : list A) (i j : Z) : list A :=
  let n := Z.of_nat (List.length l) in
  let norm k := if k <? 0 then Z.max 0 (k + n) else Z.min k n in
  firstn (Z.to_nat (norm j) - Z.to_nat (norm i)) (skipn (Z.to_nat (norm i)) l).

(** A vial: its identifier and its quota (vial/vial.py, data_config.py; other fields do not
    matter here). *)
Record vial := mkVial { v_uuid : nat; v_quota : Z }.

(** What is stored under the name of a vial (vial/result.py:42-58): nothing, text that is not
    JSON, JSON without the fields of a result, or a result; of a result only the prize is kept. *)
Inductive result_file := NoFile | NotJson | BadFields | ResultFile (prize : Z).

(** The directory of an experiment: a file for every vial identifier (lab.py:221-225). *)
Definition store := nat -> result_file.

(** Result.read_from_json_file, vial/result.py:42-58. *)
Definition read_result (st : store) (uuid : nat) : res Z :=
  match st uuid with
  | NoFile => Throw FileNotFoundErrorPy
  | NotJson => Throw JSONDecodeErrorPy
  | BadFields => Throw ValidationErrorPy
  | ResultFile p => Ok p
  end.

(** Lab.missing_vials, lab.py:58-70. *)
Definition missing_vials (st : store) (vials : list vial) : res (list vial) :=
  foldM (fun missing v =>
    match read_result st (v_uuid v) with
    | Ok _ => Ok missing
    | Throw FileNotFoundErrorPy | Throw JSONDecodeErrorPy => Ok (missing ++ [v])
    | Throw e => Throw e
    | UB u => UB u
    | OutOfFuel => OutOfFuel
    end) vials [].

(** Lab.infeasible_vials, lab.py:72-86. *)
Definition infeasible_vials (st : store) (vials : list vial) : res (list vial) :=
  foldM (fun infeasible v =>
    match read_result st (v_uuid v) with
    | Ok prize => Ok (if prize <? v_quota v then infeasible ++ [v] else infeasible)
    | Throw FileNotFoundErrorPy => Ok infeasible
    | Throw e => Throw e
    | UB u => UB u
    | OutOfFuel => OutOfFuel
    end) vials [].

(** Lab.read_results_from_file, lab.py:269-287: only the prizes. *)
Definition read_results_from_file (st : store) (vials : list vial) : res (list Z) :=
  foldM (fun results v =>
    match read_result st (v_uuid v) with
    | Ok prize => Ok (results ++ [prize])
    | Throw FileNotFoundErrorPy | Throw JSONDecodeErrorPy => Ok results
    | Throw e => Throw e
    | UB u => UB u
    | OutOfFuel => OutOfFuel
    end) vials [].

(** Result.write_to_json_file, vial/result.py:22-40. *)
Definition write_result (st : store) (uuid : nat) (prize : Z) : store :=
  fun u => if Nat.eqb u uuid then ResultFile prize else st u.

(** Lab.run_experiment_from_vial_list, lab.py:108-213. [load] stands for lines 115-175 (reading
    the problem; exceptions propagate), [solve] for run_preprocessing and run_algorithm, lines
    177-194 ([None]: an exception, which is logged and swallowed). Returns the results (vial
    and prize) and the new files. *)
Definition run_experiment_from_vial_list (load : vial -> res unit) (solve : vial -> option Z)
    (vials : list vial) (st : store) : res (list (nat * Z) * store) :=
  foldM (fun '(results, st) v =>
    do _ <- load v;
    match solve v with
    | Some prize => Ok (results ++ [(v_uuid v, prize)], write_result st (v_uuid v) prize)
    | None => Ok (results, st)
    end) vials ([], st).

(** The vials that Lab.run_batch runs, lab.py:96-101. *)
Definition batch_vials (st : store) (vials : list vial) (batch_start batch_size : Z)
    (only_missing_results : bool) : res (list vial) :=
  let batch_end := Z.min (batch_start + batch_size) (Z.of_nat (List.length vials)) in
  do vial_list <- (if only_missing_results then missing_vials st vials else Ok vials);
  Ok (py_slice vial_list batch_start batch_end).

(** Lab.run_batch, lab.py:88-102. *)
Definition run_batch load solve (st : store) (vials : list vial) (batch_start batch_size : Z)
    (only_missing_results : bool) : res (list (nat * Z) * store) :=
  do l <- batch_vials st vials batch_start batch_size only_missing_results;
  run_experiment_from_vial_list load solve l st.

(** The jobs of the slurm script, main_app.py:276,299-304: task [k] of 0..num_batches-1 runs the
    batch that starts at [k * batch_size]. Here one after the other, each reading the experiment
    file [vials] (that of the missing vials if --only-missing-results is given, main_app.py:216-218). *)
Definition run_all_batches load solve (vials : list vial) (batch_size : Z) (only_missing_results : bool)
    (st : store) : res (list (nat * Z) * store) :=
  do n <- get_nbatches (Z.of_nat (List.length vials)) batch_size;
  foldM (fun '(results, st) k =>
    do '(r, st') <- run_batch load solve st vials (Z.of_nat k * batch_size) batch_size only_missing_results;
    Ok (results ++ r, st')) (seq 0 (Z.to_nat n)) ([], st).
