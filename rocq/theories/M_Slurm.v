(** * M_Slurm: the commands batch, slurm, missing and vial (pctsp/apps/main_app.py:195-371). *)
From Verif Require Import Base M_Lab.
Open Scope Z_scope.

(** The script that the slurm command writes (main_app.py:291-312): the hours of the time limit (296), the
    last index of the array of tasks (299), the batch size (303-304) and whether
    --only-missing-results is added (310-311). The other lines only repeat options. *)
Record slurm_script := mkScript { ss_hours : Z; ss_last : Z; ss_size : Z; ss_missing : bool }.

(** The directory of an experiment (lab.py:215-257, main_app.py:277): the vials of experiment.json and of
    missing_experiment.json if these files exist, the files of the vials, the script. *)
Record experiment_dir := mkDir {
  ed_vials : option (list vial); ed_missing : option (list vial); ed_results : store; ed_script : option slurm_script }.

(** Lab.read_experiment_from_file, lab.py:227-242. *)
Definition read_experiment_file (D : experiment_dir) (only_missing_results : bool) : res (list vial) :=
  match (if only_missing_results then ed_missing D else ed_vials D) with
  | Some vials => Ok vials
  | None => Throw FileNotFoundErrorPy
  end.

(** [x * y] of two non-negative floats (main_app.py:282; Python), without overflow and underflow. *)
Definition py_mul (x y : Z * Z) : Z * Z :=
  let '(a, b) := frac x in
  let '(c, d) := frac y in
  if a * c =? 0 then (0, 0) else round53 (a * c) (b * d).

(** [math.ceil] of minus a non-negative float (lab.py:292, main_app.py:282; Python). *)
Definition py_ceil_neg (x : Z * Z) : Z := let '(a, b) := frac x in - (a / b).

(** get_nbatches, lab.py:290-292, for batch sizes of both signs (rounding is symmetric). *)
Definition get_nbatches_signed (num_vials batch_size : Z) : res Z :=
  if batch_size <? 0
  then do q <- py_div (py_float num_vials) (py_float (- batch_size)); Ok (py_ceil_neg q)
  else get_nbatches num_vials batch_size.

(** expected_cpu_time, main_app.py:282, for a time limit that is a non-negative float. *)
Definition expected_cpu_time (batch_size : Z) (time_limit : Z * Z) : res Z :=
  do hours <- py_div time_limit (py_float 3600);
  Ok (if batch_size <? 0 then py_ceil_neg (py_mul (py_float (- batch_size)) hours)
      else py_ceil (py_mul (py_float batch_size) hours)).

(** two_days_in_hours, main_app.py:281. *)
Definition two_days_in_hours : Z := 2 * 24 * 3600.

(** The slurm command, main_app.py:249-314. *)
Definition slurm (D : experiment_dir) (batch_size : Z) (time_limit : Z * Z) (only_missing_results overwrite : bool)
    : res experiment_dir :=
  do vials <- read_experiment_file D only_missing_results;
  do num_batches <- get_nbatches_signed (Z.of_nat (length vials)) batch_size;
  do expected <- expected_cpu_time batch_size time_limit;
  let slurm_time_limit_hours := Z.min (expected + 1) two_days_in_hours in
  match ed_script D, overwrite with
  | Some _, false => Throw FileExistsErrorPy
  | _, _ =>
      Ok (mkDir (ed_vials D) (ed_missing D) (ed_results D)
            (Some (mkScript slurm_time_limit_hours (num_batches - 1) batch_size only_missing_results)))
  end.

(** The batch command, main_app.py:195-221: the flag selects the file, run_batch is called without it. *)
Definition batch_command load solve (D : experiment_dir) (batch_start batch_size : Z) (only_missing_results : bool)
    : res experiment_dir :=
  do vials <- read_experiment_file D only_missing_results;
  do '(_, st) <- run_batch load solve (ed_results D) vials batch_start batch_size false;
  Ok (mkDir (ed_vials D) (ed_missing D) st (ed_script D)).

(** The tasks that Slurm makes of [--array=0-last] (main_app.py:299): none, because the script is rejected, if
    [last] is negative (0--1 is no range). *)
Definition sbatch_tasks (s : slurm_script) : option (list nat) :=
  if ss_last s <? 0 then None else Some (seq 0 (Z.to_nat (ss_last s + 1))).

(** One task of the script, main_app.py:302-311. *)
Definition run_task load solve (s : slurm_script) (D : experiment_dir) (task : nat) : res experiment_dir :=
  batch_command load solve D (Z.of_nat task * ss_size s) (ss_size s) (ss_missing s).

(** Tasks one after the other, in any order (main_app.py:302-311; Slurm). Simplification: an exception in a task ends
    the run here, whereas Slurm would go on with the other tasks. *)
Definition run_tasks load solve (s : slurm_script) (tasks : list nat) (D : experiment_dir) : res experiment_dir :=
  foldM (run_task load solve s) tasks D.

(** The missing command, main_app.py:317-342, with lab.py:244-257 (without what it prints). *)
Definition missing_command (D : experiment_dir) : res experiment_dir :=
  do vials <- read_experiment_file D false;
  do m <- missing_vials (ed_results D) vials;
  Ok (mkDir (ed_vials D) (Some m) (ed_results D) (ed_script D)).

(** The vial command, main_app.py:345-371: the result printed and the directory. *)
Definition vial_command load solve (D : experiment_dir) (vial_uuid : nat) : res ((nat * Z) * experiment_dir) :=
  do vials <- read_experiment_file D false;
  match fold_left (fun found v => if Nat.eqb (v_uuid v) vial_uuid then Some v else found) vials None with
  | None => Throw ValueErrorPy
  | Some v =>
      do '(results, st) <- run_experiment_from_vial_list load solve [v] (ed_results D);
      match results with
      | [] => Throw IndexErrorPy
      | r :: _ => Ok (r, mkDir (ed_vials D) (ed_missing D) st (ed_script D))
      end
  end.
