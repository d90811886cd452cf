(** * M_LabTree: the directories and files of a lab (pctsp/lab/lab.py, pctsp/vial/result.py), the commands lab, setup, batch,
    missing, nmissing, infeasible, londonaq and tsplib as changes of the files (pctsp/apps/main_app.py), and the commands zip and
    unzip (pctsp/apps/utils_app.py) *)
From Coq Require Import String.
From Verif Require Import Base M_Lab M_Compare M_Csv.
Open Scope string_scope.
Open Scope list_scope.
Open Scope nat_scope.

(** A part of a path: a name, the text of a uuid (lab.py:223), or that text with .json (vial/result.py:36,55). Simplification:
    different uuids have different texts, which are not among the names of the other files. *)
Inductive comp := Name (s : string) | Uid (u : nat) | UidJson (u : nat).

(** Equality of parts of paths (lab.py:215-225). *)
Definition comp_eqb (a b : comp) : bool :=
  match a, b with
  | Name s, Name s' => String.eqb s s'
  | Uid u, Uid u' => Nat.eqb u u'
  | UidJson u, UidJson u' => Nat.eqb u u'
  | _, _ => false
  end.

(** A path below lab_dir, which is the empty path (lab.py:43-56). *)
Definition path := list comp.

(** Equality of paths (lab.py:215-225). *)
Fixpoint path_eqb (p q : path) : bool :=
  match p, q with
  | [], [] => true
  | a :: p, b :: q => comp_eqb a b && path_eqb p q
  | _, _ => false
  end.

(** A directory or a file. Of the contents of files only the vials of an experiment (lab.py:244-257), the prize of a result
    (vial/result.py:22-40), the list of results (lab.py:258-267) and the entries of an archive (utils_app.py:24-26) are kept; a
    file may also hold JSON of another form, or something that is not JSON. *)
Inductive node := Dir | File (c : content)
with content := Vials (vs : list vial) | Prize (z : Z) | Prizes (rs : list (nat * Z)) | BadJson | Text
  | Archive (es : list (path * node)).

(** The directories and files below lab_dir (lab.py:43-56). *)
Definition tree := list (path * node).

(** What is at a path (pathlib). *)
Definition lookup (t : tree) (p : path) : option node :=
  match find (fun e => path_eqb (fst e) p) t with Some (_, n) => Some n | None => None end.

(** Put something at a path in place of what was there (lab.py:54,218,224,256,266). *)
Definition put (t : tree) (p : path) (n : node) : tree := (p, n) :: filter (fun e => negb (path_eqb (fst e) p)) t.

(** A step that changes the files and returns a value or raises; what was changed before an exception stays (lab.py). *)
Definition cmd (A : Type) := tree -> tree * res A.

(** Return a value (lab.py). *)
Definition ret {A} (a : A) : cmd A := fun t => (t, Ok a).

(** A computation that does not change the files (lab.py). *)
Definition lift {A} (r : res A) : cmd A := fun t => (t, r).

(** One step after the other (lab.py). *)
Definition cbind {A B} (m : cmd A) (f : A -> cmd B) : cmd B := fun t =>
  let '(t', r) := m t in
  match r with
  | Ok a => f a t'
  | Throw e => (t', Throw e)
  | UB u => (t', UB u)
  | OutOfFuel => (t', OutOfFuel)
  end.

(** [act x <- m ; f]: a step and what follows (lab.py). *)
Notation "'act' x <- m ; f" := (cbind m (fun x => f)) (at level 200, x name, m at level 100, f at level 200).

(** [try]: the exception becomes a value (lab.py:64-69,78-85,176-208). *)
Definition attempt {A} (m : cmd A) : cmd (res A) := fun t => let '(t', r) := m t in (t', Ok r).

(** [for] (lab.py:63,77,114). *)
Fixpoint foldC {A S} (f : S -> A -> cmd S) (l : list A) (s : S) : cmd S :=
  match l with
  | [] => ret s
  | a :: l => act s' <- f s a; foldC f l s'
  end.

(** [path.mkdir(exist_ok=True, parents=False)] (lab.py:53,218,224; Python). The errors NotADirectoryError and IsADirectoryError
    are OSError here and below. *)
Definition mkdir (p : path) : cmd unit := fun t =>
  match lookup t p with
  | Some Dir => (t, Ok tt)
  | Some (File _) => (t, Throw FileExistsErrorPy)
  | None =>
      match lookup t (removelast p) with
      | Some Dir => (put t p Dir, Ok tt)
      | Some (File _) => (t, Throw OSErrorPy)
      | None => (t, Throw FileNotFoundErrorPy)
      end
  end.

(** [open(path, "w")] and writing (lab.py:256-257,266-267, vial/result.py:38-39; Python). *)
Definition write_file (p : path) (c : content) : cmd unit := fun t =>
  match lookup t p with
  | Some Dir => (t, Throw OSErrorPy)
  | Some (File _) => (put t p (File c), Ok tt)
  | None =>
      match lookup t (removelast p) with
      | Some Dir => (put t p (File c), Ok tt)
      | Some (File _) => (t, Throw OSErrorPy)
      | None => (t, Throw FileNotFoundErrorPy)
      end
  end.

(** ExperimentName, vial/experiment.py:10-24. *)
Definition experiment_value (e : experiment_name) : string :=
  match e with
  | Baseline => "baseline" | CostCover => "cost_cover" | DisjointToursVsHeuristics => "disjoint_tours_vs_heuristics"
  | CcLondonaqAlpha => "cc_londonaq_alpha" | Dryrun => "dryrun" | CompareHeuristics => "compare_heuristics"
  | LondonaqAlpha => "londonaq_alpha" | Onerun => "onerun" | SimpleBranchCut => "simple_branch_cut" | TailingOff => "tailing_off"
  end.

(** [lab_dir / dataset.value], main_app.py:149,185,211,325,382,397,477,582, utils_app.py:21,36. *)
Definition data_path (d : dataset_name) : path := [Name (dataset_value d)].
(** [self.lab_dir / experiment_name.value], lab.py:217. *)
Definition exp_path (d : dataset_name) (e : experiment_name) : path := data_path d ++ [Name (experiment_value e)].
(** A file in the directory of an experiment, lab.py:233-236,250-253,262. *)
Definition exp_file (d : dataset_name) (e : experiment_name) (name : string) : path := exp_path d e ++ [Name name].
(** The directory of a vial, lab.py:223. *)
Definition vial_path (d : dataset_name) (e : experiment_name) (u : nat) : path := exp_path d e ++ [Uid u].
(** The file of the result of a vial, vial/result.py:36-37,55-56. *)
Definition result_path (d : dataset_name) (e : experiment_name) (u : nat) : path := vial_path d e u ++ [UidJson u].

(** Lab.__init__, lab.py:43-56. *)
Definition new_lab (d : dataset_name) : cmd unit := mkdir (data_path d).

(** Lab.get_experiment_dir, lab.py:215-219. *)
Definition get_experiment_dir (d : dataset_name) (e : experiment_name) : cmd path :=
  act _ <- mkdir (exp_path d e);
  ret (exp_path d e).

(** Lab.get_vial_dir, lab.py:221-225. *)
Definition get_vial_dir (d : dataset_name) (e : experiment_name) (u : nat) : cmd path :=
  act _ <- get_experiment_dir d e;
  act _ <- mkdir (vial_path d e u);
  ret (vial_path d e u).

(** EXPERIMENT_FILENAME, MISSING_EXPERIMENT_PREFIX, lab.py:36-37,230-236,248-253. *)
Definition experiment_filename (only_missing_results : bool) : string :=
  if only_missing_results then "missing_experiment.json" else "experiment.json".

(** Lab.read_experiment_from_file, lab.py:227-242 (of the experiment only the vials). Simplification: JSON of another form is a
    ValidationError. *)
Definition read_experiment_from_file (d : dataset_name) (e : experiment_name) (only_missing_results : bool) : cmd (list vial) :=
  act _ <- get_experiment_dir d e;
  fun t => (t,
    match lookup t (exp_file d e (experiment_filename only_missing_results)) with
    | None => Throw FileNotFoundErrorPy
    | Some Dir => Throw OSErrorPy
    | Some (File (Vials vs)) => Ok vs
    | Some (File Text) | Some (File (Archive _)) => Throw JSONDecodeErrorPy
    | Some (File _) => Throw ValidationErrorPy
    end).

(** Lab.write_experiment_to_file, lab.py:244-257. *)
Definition write_experiment_to_file (d : dataset_name) (e : experiment_name) (vs : list vial) (only_missing_results : bool) : cmd unit :=
  act _ <- get_experiment_dir d e;
  write_file (exp_file d e (experiment_filename only_missing_results)) (Vials vs).

(** Lab.write_results_to_file, lab.py:258-267. *)
Definition write_results_to_file (d : dataset_name) (e : experiment_name) (rs : list (nat * Z)) : cmd unit :=
  act _ <- get_experiment_dir d e;
  write_file (exp_file d e "results.json") (Prizes rs).

(** Result.read_from_json_file, vial/result.py:42-58. *)
Definition read_from_json_file (directory : path) (u : nat) : cmd Z := fun t => (t,
  match lookup t directory with
  | None => Throw FileNotFoundErrorPy
  | Some _ =>
      match lookup t (directory ++ [UidJson u]) with
      | None => Throw FileNotFoundErrorPy
      | Some Dir => Throw OSErrorPy
      | Some (File (Prize z)) => Ok z
      | Some (File Text) | Some (File (Archive _)) => Throw JSONDecodeErrorPy
      | Some (File _) => Throw ValidationErrorPy
      end
  end).

(** Result.write_to_json_file, vial/result.py:22-40. *)
Definition write_to_json_file (directory : path) (u : nat) (z : Z) : cmd unit := fun t =>
  match lookup t directory with
  | None => (t, Throw FileNotFoundErrorPy)
  | Some _ => write_file (directory ++ [UidJson u]) (Prize z) t
  end.

(** Lab.missing_vials, lab.py:58-70. *)
Definition tree_missing_vials (d : dataset_name) (e : experiment_name) (vs : list vial) : cmd (list vial) :=
  foldC (fun missing v =>
    act r <- attempt (act dir <- get_vial_dir d e (v_uuid v); read_from_json_file dir (v_uuid v));
    match r with
    | Ok _ => ret missing
    | Throw FileNotFoundErrorPy | Throw JSONDecodeErrorPy => ret (missing ++ [v])
    | Throw x => lift (Throw x)
    | UB u => lift (UB u)
    | OutOfFuel => lift OutOfFuel
    end) vs [].

(** Lab.infeasible_vials, lab.py:72-86. *)
Definition tree_infeasible_vials (d : dataset_name) (e : experiment_name) (vs : list vial) : cmd (list vial) :=
  foldC (fun infeasible v =>
    act r <- attempt (act dir <- get_vial_dir d e (v_uuid v); read_from_json_file dir (v_uuid v));
    match r with
    | Ok prize => ret (if Z.ltb prize (v_quota v) then infeasible ++ [v] else infeasible)
    | Throw FileNotFoundErrorPy => ret infeasible
    | Throw x => lift (Throw x)
    | UB u => lift (UB u)
    | OutOfFuel => lift OutOfFuel
    end) vs [].

(** What running a vial gives (lab.py:176-194): the files that the solver writes in the directory of the vial, such as its logs
    (run_algorithm.py:231), and the prize, or none if there was an exception. *)
Record outcome := mkOutcome { o_logs : list (string * content); o_prize : option Z }.

(** The files of the solver (run_algorithm.py:231). Simplification: one that cannot be written is left out. *)
Definition write_logs (dir : path) (logs : list (string * content)) : cmd unit :=
  foldC (fun _ l => act _ <- attempt (write_file (dir ++ [Name (fst l)]) (snd l)); ret tt) logs tt.

(** Lab.run_experiment_from_vial_list, lab.py:108-213; [load] and [solve] as in M_Lab. The result is in the list before it is
    written, and an exception of writing it is caught (194-208). *)
Definition tree_run_vials (load : vial -> res unit) (solve : vial -> outcome) (d : dataset_name) (e : experiment_name)
    (vs : list vial) : cmd (list (nat * Z)) :=
  foldC (fun results v =>
    act _ <- lift (load v);
    act dir <- get_vial_dir d e (v_uuid v);
    act _ <- write_logs dir (o_logs (solve v));
    match o_prize (solve v) with
    | None => ret results
    | Some z =>
        act _ <- attempt (act dir <- get_vial_dir d e (v_uuid v); write_to_json_file dir (v_uuid v) z);
        ret (results ++ [(v_uuid v, z)])
    end) vs [].

(** The setup command, main_app.py:165-192; [vials]: what the function of the experiment returns (M_Compare). *)
Definition setup_command (d : dataset_name) (e : experiment_name) (vials : res (list vial)) : cmd unit :=
  act vs <- lift vials;
  act _ <- new_lab d;
  write_experiment_to_file d e vs false.

(** The lab command, main_app.py:129-162. *)
Definition lab_command load solve (d : dataset_name) (e : experiment_name) (vials : res (list vial)) : cmd unit :=
  act vs <- lift vials;
  act _ <- new_lab d;
  act _ <- write_experiment_to_file d e vs false;
  act results <- tree_run_vials load solve d e vs;
  write_results_to_file d e results.

(** The commands londonaq and tsplib, main_app.py:405-489,492-594; [problem]: reading the instance and making the vial
    (421-470,511-573, M_Compare). *)
Definition onerun_command load solve (d : dataset_name) (problem : res vial) : cmd unit :=
  act v <- lift problem;
  act _ <- new_lab d;
  act _ <- write_experiment_to_file d Onerun [v] false;
  act results <- tree_run_vials load solve d Onerun [v];
  write_results_to_file d Onerun results.

(** The batch command, main_app.py:195-221, with Lab.run_batch, lab.py:88-102. *)
Definition tree_batch_command load solve (d : dataset_name) (e : experiment_name) (batch_start batch_size : Z)
    (only_missing_results : bool) : cmd unit :=
  act _ <- new_lab d;
  act vs <- read_experiment_from_file d e only_missing_results;
  let batch_end := Z.min (batch_start + batch_size) (Z.of_nat (List.length vs)) in
  act _ <- tree_run_vials load solve d e (py_slice vs batch_start batch_end);
  ret tt.

(** The missing command, main_app.py:317-342 (without what it prints). *)
Definition tree_missing_command (d : dataset_name) (e : experiment_name) : cmd unit :=
  act _ <- new_lab d;
  act vs <- read_experiment_from_file d e false;
  act missing <- tree_missing_vials d e vs;
  write_experiment_to_file d e missing true.

(** The nmissing command, main_app.py:374-386: the two numbers that it prints. *)
Definition nmissing_command (d : dataset_name) (e : experiment_name) : cmd (nat * nat) :=
  act _ <- new_lab d;
  act vs <- read_experiment_from_file d e false;
  act missing <- tree_missing_vials d e vs;
  ret (List.length missing, List.length vs).

(** The infeasible command, main_app.py:389-402: the uuids that it prints. *)
Definition infeasible_command (d : dataset_name) (e : experiment_name) : cmd (list nat) :=
  act _ <- new_lab d;
  act vs <- read_experiment_from_file d e false;
  act infeasible <- tree_infeasible_vials d e vs;
  ret (map v_uuid infeasible).

(** The archive of an experiment, utils_app.py:23-26,38: beside its directory. *)
Definition zip_path (d : dataset_name) (e : experiment_name) : path := data_path d ++ [Name (experiment_value e ++ ".zip")%string].

(** [p] is [q] or above it (shutil.make_archive, utils_app.py:24-26). *)
Fixpoint is_prefix (p q : path) : bool :=
  match p, q with
  | [], _ => true
  | a :: p, b :: q => comp_eqb a b && is_prefix p q
  | _, [] => false
  end.

(** [make_archive(base_name, "zip", root_dir, base_dir)] (utils_app.py:24-26; shutil): the archive is opened first, so if the
    directory does not exist it is left without entries. Simplification: the entries have the order of the tree; their names are
    relative to root_dir. *)
Definition zip_experiment (d : dataset_name) (e : experiment_name) : cmd unit := fun t =>
  match lookup t (data_path d) with
  | None => (t, Throw FileNotFoundErrorPy)
  | Some (File _) => (t, Throw OSErrorPy)
  | Some Dir =>
      match lookup t (zip_path d e) with
      | Some Dir => (t, Throw OSErrorPy)
      | _ =>
          match lookup t (exp_path d e) with
          | None => (put t (zip_path d e) (File (Archive [])), Throw FileNotFoundErrorPy)
          | Some _ =>
              (put t (zip_path d e) (File (Archive (map (fun en => (tl (fst en), snd en))
                (filter (fun en => is_prefix (exp_path d e) (fst en)) t)))), Ok tt)
          end
      end
  end.

(** The zip command, utils_app.py:13-26. *)
Definition zip_command (d : dataset_name) (es : list experiment_name) : cmd unit :=
  foldC (fun _ e => zip_experiment d e) es tt.

(** [_ensure_directory] with [os.makedirs] (utils_app.py:39; shutil): the directories of [rest] below [done]. *)
Fixpoint ensure_directory (done rest : path) : cmd unit := fun t =>
  match rest with
  | [] => (t, Ok tt)
  | c :: rest =>
      match lookup t (done ++ [c]) with
      | Some Dir => ensure_directory (done ++ [c]) rest t
      | Some (File _) => (t, Throw (match rest with [] => FileExistsErrorPy | _ => OSErrorPy end))
      | None => ensure_directory (done ++ [c]) rest (put t (done ++ [c]) Dir)
      end
  end.

(** One entry of the archive (utils_app.py:39; shutil). *)
Definition extract (d : dataset_name) (en : path * node) : cmd unit :=
  let target := data_path d ++ fst en in
  match snd en with
  | Dir => ensure_directory [] target
  | File c => act _ <- ensure_directory [] (removelast target); write_file target c
  end.

(** [unpack_archive(base_name, extract_dir=root_dir, format="zip")] (utils_app.py:38-39; shutil): a missing file or one that is no
    archive is a ReadError, which is an OSError. *)
Definition unzip_experiment (d : dataset_name) (e : experiment_name) : cmd unit := fun t =>
  match lookup t (zip_path d e) with
  | Some (File (Archive es)) => foldC (fun _ en => extract d en) es tt t
  | _ => (t, Throw OSErrorPy)
  end.

(** The unzip command, utils_app.py:29-39. *)
Definition unzip_command (d : dataset_name) (es : list experiment_name) : cmd unit :=
  foldC (fun _ e => unzip_experiment d e) es tt.
