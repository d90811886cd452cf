(** * Spec_LabTree: what the commands of the lab should do with its files *)
From Coq Require Import String.
From Verif Require Import Base M_Lab M_Compare M_Csv M_LabTree.
Open Scope string_scope.
Open Scope list_scope.
Open Scope nat_scope.

(** Every path occurs once, and everything but lab_dir itself lies in a directory. *)
Definition well_formed (t : tree) : Prop :=
  NoDup (map fst t) /\ forall p c n, lookup t (p ++ [c]) = Some n -> lookup t p = Some Dir.

(** [q] is [p] or lies below it. *)
Definition at_or_below (p q : path) : Prop := exists r, q = p ++ r.

(** Nothing is different except at the paths of [P]. *)
Definition changes_only (P : path -> Prop) (t t' : tree) : Prop := forall p, ~ P p -> lookup t' p = lookup t p.

(** The same files with the same contents. *)
Definition same_files (t t' : tree) : Prop := forall p c, lookup t' p = Some (File c) <-> lookup t p = Some (File c).

(** No directory has gone, and every new one is at a path of [P]. *)
Definition new_directories (P : path -> Prop) (t t' : tree) : Prop :=
  (forall p, lookup t p = Some Dir -> lookup t' p = Some Dir) /\
  (forall p, lookup t' p = Some Dir -> lookup t p = Some Dir \/ P p).

(** The directory of the data set, that of the experiment, and those of the vials. *)
Definition lab_directory (d : dataset_name) (e : experiment_name) (vs : list vial) (p : path) : Prop :=
  p = [Name (dataset_value d)] \/ p = [Name (dataset_value d); Name (experiment_value e)] \/
  exists v, In v vs /\ p = [Name (dataset_value d); Name (experiment_value e); Uid (v_uuid v)].

(** What is stored as the result of a vial. *)
Definition store_of (t : tree) (d : dataset_name) (e : experiment_name) (u : nat) : result_file :=
  match lookup t [Name (dataset_value d); Name (experiment_value e); Uid u; UidJson u] with
  | None | Some Dir => NoFile
  | Some (File (Prize z)) => ResultFile z
  | Some (File Text) | Some (File (Archive _)) => NotJson
  | Some (File _) => BadFields
  end.

(** The experiment was set up with these vials: lab_dir and the directories exist, and the file has the vials. *)
Definition has_experiment (t : tree) (d : dataset_name) (e : experiment_name) (file : string) (vs : list vial) : Prop :=
  lookup t [] = Some Dir /\ lookup t [Name (dataset_value d)] = Some Dir /\
  lookup t [Name (dataset_value d); Name (experiment_value e)] = Some Dir /\
  lookup t [Name (dataset_value d); Name (experiment_value e); Name file] = Some (File (Vials vs)).

(** No file is in the place of the directory of a vial, and no directory in the place of the file of its result. *)
Definition vials_in_place (t : tree) (d : dataset_name) (e : experiment_name) (vs : list vial) : Prop :=
  forall v, In v vs ->
    (forall c, lookup t [Name (dataset_value d); Name (experiment_value e); Uid (v_uuid v)] <> Some (File c)) /\
    lookup t [Name (dataset_value d); Name (experiment_value e); Uid (v_uuid v); UidJson (v_uuid v)] <> Some Dir.

(** No file is in the place of a directory of the lab, or the other way round. *)
Definition lab_in_place (t : tree) (d : dataset_name) (e : experiment_name) (vs : list vial) : Prop :=
  (forall c, lookup t [Name (dataset_value d)] <> Some (File c)) /\
  (forall c, lookup t [Name (dataset_value d); Name (experiment_value e)] <> Some (File c)) /\
  lookup t [Name (dataset_value d); Name (experiment_value e); Name "experiment.json"] <> Some Dir /\
  lookup t [Name (dataset_value d); Name (experiment_value e); Name "results.json"] <> Some Dir /\
  vials_in_place t d e vs.

(** A directory in one place and a file in the other. *)
Definition clash (n n' : option node) : Prop :=
  (exists c, n = Some (File c) /\ n' = Some Dir) \/ (exists c, n = Some Dir /\ n' = Some (File c)).

(** The results of the vials that have one, in the order of the vials. *)
Definition prizes_of (prize : vial -> option Z) (vs : list vial) : list (nat * Z) :=
  flat_map (fun v => match prize v with Some z => [(v_uuid v, z)] | None => [] end) vs.

(** In [t'] the vials of [vs] that gave a prize have it as their result; the results of all others are as in [t]. *)
Definition results_added (prize : vial -> option Z) (vs : list vial) (d : dataset_name) (e : experiment_name) (t t' : tree) : Prop :=
  (forall v, In v vs -> store_of t' d e (v_uuid v) = match prize v with Some z => ResultFile z | None => store_of t d e (v_uuid v) end) /\
  (forall u, ~ In u (map v_uuid vs) -> store_of t' d e u = store_of t d e u).

(** The entries are what is at or below the directory of the experiment, each once. *)
Definition archive_of (t : tree) (d : dataset_name) (e : experiment_name) (es : list (path * node)) : Prop :=
  NoDup (map fst es) /\
  forall p n, In (p, n) es <-> at_or_below [Name (experiment_value e)] p /\ lookup t (Name (dataset_value d) :: p) = Some n.

(** The archive of an experiment. *)
Definition archive_place (d : dataset_name) (e : experiment_name) : path :=
  [Name (dataset_value d); Name (experiment_value e ++ ".zip")%string].

(** A command ends with a value or with an exception. *)
Definition ends {A} (r : res A) : Prop := (exists a, r = Ok a) \/ exists x, r = Throw x.

(** The command raises [x] and changes nothing. *)
Definition stopped {A} (x : exn) (t : tree) (m : cmd A) : Prop := m t = (t, Throw x).
