(** * Properties_LabTree: the files of a lab (C71) *)
From Coq Require Import String.
From Verif Require Import Base P_Base M_Lab M_Compare M_Csv M_LabTree Spec_Lab Spec_LabTree P_LabTree.
Open Scope string_scope.
Open Scope list_scope.
Open Scope nat_scope.

(** The names of the directories, which differ from each other and from the names of the archives. *)
Theorem C71_names :
  map dataset_value [Londonaq; Tspwplib] = ["londonaq"; "tspwplib"] /\
  map experiment_value [Baseline; CostCover; DisjointToursVsHeuristics; CcLondonaqAlpha; Dryrun; CompareHeuristics; LondonaqAlpha;
      Onerun; SimpleBranchCut; TailingOff] =
    ["baseline"; "cost_cover"; "disjoint_tours_vs_heuristics"; "cc_londonaq_alpha"; "dryrun"; "compare_heuristics";
     "londonaq_alpha"; "onerun"; "simple_branch_cut"; "tailing_off"] /\
  (forall e e', experiment_value e = experiment_value e' -> e = e') /\
  (forall e e', (experiment_value e ++ ".zip")%string <> experiment_value e').
Proof.
  split; [reflexivity|]. split; [reflexivity|]. split.
  - intros e e' E. destruct e, e'; vm_compute in E; congruence.
  - intros e e' E. apply (zip_name e e'). now rewrite E.
Qed.
Print Assumptions C71_names.

(** The commands leave everything as it was except the directory of the data set, which may be made, and what is at or below the
    directory of the experiment; and there everything still lies in a directory. *)
Theorem C71_elsewhere : forall load solve d e vials problem k n only t, well_formed t ->
  let inside e p := p = [Name (dataset_value d)] \/ at_or_below [Name (dataset_value d); Name (experiment_value e)] p in
  let fine e (t' : tree) := well_formed t' /\ changes_only (inside e) t t' in
  fine e (fst (setup_command d e vials t)) /\ fine e (fst (lab_command load solve d e vials t)) /\
  fine Onerun (fst (onerun_command load solve d problem t)) /\ fine e (fst (tree_batch_command load solve d e k n only t)) /\
  fine e (fst (tree_missing_command d e t)) /\ fine e (fst (nmissing_command d e t)) /\ fine e (fst (infeasible_command d e t)).
Proof.
  intros load solve d e vials problem k n only t W inside fine.
  destruct (commands_own load solve d e vials problem k n only) as (A & B & C & D & E & F & G).
  split; [exact (A t W)|]. split; [exact (B t W)|]. split; [exact (C t W)|]. split; [exact (D t W)|].
  split; [exact (E t W)|]. split; [exact (F t W)|exact (G t W)].
Qed.
Print Assumptions C71_elsewhere.

(** [nmissing] prints how many vials have no readable result, and how many there are; it changes no file, but may make the
    directories of vials. *)
Theorem C71_nmissing : forall t d e vs, has_experiment t d e "experiment.json" vs -> vials_in_place t d e vs ->
  (forall v, In v vs -> store_of t d e (v_uuid v) <> BadFields) ->
  exists t' m, nmissing_command d e t = (t', Ok (List.length m, List.length vs)) /\
    selected (without_result (store_of t d e)) vs m /\ same_files t t' /\ new_directories (lab_directory d e vs) t t'.
Proof. exact nmissing_ok. Qed.
Print Assumptions C71_nmissing.

(** [infeasible] prints the uuids of the vials whose result has less than the quota. *)
Theorem C71_infeasible : forall t d e vs, has_experiment t d e "experiment.json" vs -> vials_in_place t d e vs ->
  (forall v, In v vs -> store_of t d e (v_uuid v) <> BadFields /\ store_of t d e (v_uuid v) <> NotJson) ->
  exists t' m, infeasible_command d e t = (t', Ok (map v_uuid m)) /\
    selected (result_below_quota (store_of t d e)) vs m /\ same_files t t' /\ new_directories (lab_directory d e vs) t t'.
Proof. exact infeasible_cmd_ok. Qed.
Print Assumptions C71_infeasible.

(** [missing] writes the vials without a readable result to missing_experiment.json and changes no other file. *)
Theorem C71_missing : forall t d e vs, has_experiment t d e "experiment.json" vs -> vials_in_place t d e vs ->
  lookup t [Name (dataset_value d); Name (experiment_value e); Name "missing_experiment.json"] <> Some Dir ->
  (forall v, In v vs -> store_of t d e (v_uuid v) <> BadFields) ->
  exists t' m, tree_missing_command d e t = (t', Ok tt) /\
    selected (without_result (store_of t d e)) vs m /\ has_experiment t' d e "missing_experiment.json" m /\
    has_experiment t' d e "experiment.json" vs /\
    (forall p c, p <> [Name (dataset_value d); Name (experiment_value e); Name "missing_experiment.json"] ->
       (lookup t' p = Some (File c) <-> lookup t p = Some (File c))) /\
    new_directories (lab_directory d e vs) t t'.
Proof. exact missing_cmd_ok. Qed.
Print Assumptions C71_missing.

(** [setup] writes the vials to experiment.json and keeps the results that are there. *)
Theorem C71_setup : forall t d e vs, lookup t [] = Some Dir -> lab_in_place t d e vs -> well_formed t ->
  exists t', setup_command d e (Ok vs) t = (t', Ok tt) /\ has_experiment t' d e "experiment.json" vs /\
    (forall u, store_of t' d e u = store_of t d e u) /\
    forall p, p <> [Name (dataset_value d)] -> p <> [Name (dataset_value d); Name (experiment_value e)] ->
      p <> [Name (dataset_value d); Name (experiment_value e); Name "experiment.json"] -> lookup t' p = lookup t p.
Proof. exact setup_ok. Qed.
Print Assumptions C71_setup.

(** [lab] writes the vials, the results of those that give one, each to its own file and all to results.json. *)
Theorem C71_lab : forall load solve t d e vs, lookup t [] = Some Dir -> lab_in_place t d e vs -> well_formed t ->
  (forall v, In v vs -> load v = Ok tt) -> NoDup (map v_uuid vs) ->
  exists t', lab_command load solve d e (Ok vs) t = (t', Ok tt) /\ has_experiment t' d e "experiment.json" vs /\
    lookup t' [Name (dataset_value d); Name (experiment_value e); Name "results.json"] =
      Some (File (Prizes (prizes_of (fun v => o_prize (solve v)) vs))) /\
    results_added (fun v => o_prize (solve v)) vs d e t t' /\ vials_in_place t' d e vs.
Proof. exact lab_ok. Qed.
Print Assumptions C71_lab.

(** If a problem cannot be read, [lab] stops there: the vials and the results so far are on the disk, results.json is not
    written. *)
Theorem C71_lab_stops : forall load solve t d e vs1 v vs2 x, lookup t [] = Some Dir -> lab_in_place t d e (vs1 ++ v :: vs2) ->
  well_formed t -> (forall v, In v vs1 -> load v = Ok tt) -> NoDup (map v_uuid vs1) -> load v = Throw x ->
  exists t', lab_command load solve d e (Ok (vs1 ++ v :: vs2)) t = (t', Throw x) /\
    has_experiment t' d e "experiment.json" (vs1 ++ v :: vs2) /\
    lookup t' [Name (dataset_value d); Name (experiment_value e); Name "results.json"] =
      lookup t [Name (dataset_value d); Name (experiment_value e); Name "results.json"] /\
    results_added (fun v => o_prize (solve v)) vs1 d e t t'.
Proof. exact lab_stops. Qed.
Print Assumptions C71_lab_stops.

(** [batch] runs the [n] vials from number [k] on of experiment.json or missing_experiment.json, and changes only what is at or
    below their directories. *)
Theorem C71_batch : forall load solve t d e vs k n (only : bool),
  has_experiment t d e (if only then "missing_experiment.json" else "experiment.json") vs -> vials_in_place t d e vs -> well_formed t ->
  (forall v, In v (firstn n (skipn k vs)) -> load v = Ok tt) -> NoDup (map v_uuid vs) ->
  exists t', tree_batch_command load solve d e (Z.of_nat k) (Z.of_nat n) only t = (t', Ok tt) /\
    results_added (fun v => o_prize (solve v)) (firstn n (skipn k vs)) d e t t' /\
    vials_in_place t' d e vs /\ well_formed t' /\
    changes_only (fun p => exists v, In v (firstn n (skipn k vs)) /\
       at_or_below [Name (dataset_value d); Name (experiment_value e); Uid (v_uuid v)] p) t t'.
Proof. exact batch_ok. Qed.
Print Assumptions C71_batch.

(** [missing], then [batch] with only-missing-results over all of that file: the vials without a result are run, the other
    results stay, and [nmissing] then prints 0 if all these runs gave a result. *)
Theorem C71_rerun : forall load solve t d e vs, has_experiment t d e "experiment.json" vs -> vials_in_place t d e vs -> well_formed t ->
  lookup t [Name (dataset_value d); Name (experiment_value e); Name "missing_experiment.json"] <> Some Dir ->
  (forall v, In v vs -> store_of t d e (v_uuid v) <> BadFields) -> NoDup (map v_uuid vs) ->
  (forall v, In v vs -> without_result (store_of t d e) v -> load v = Ok tt /\ o_prize (solve v) <> None) ->
  exists t1 t2 t3, tree_missing_command d e t = (t1, Ok tt) /\
    tree_batch_command load solve d e 0 (Z.of_nat (List.length vs)) true t1 = (t2, Ok tt) /\
    nmissing_command d e t2 = (t3, Ok (0, List.length vs)) /\
    forall v, In v vs -> store_of t2 d e (v_uuid v) =
      match store_of t d e (v_uuid v) with ResultFile z => ResultFile z
      | _ => match o_prize (solve v) with Some z => ResultFile z | None => NoFile end end.
Proof. exact rerun_tree. Qed.
Print Assumptions C71_rerun.

(** [londonaq] and [tsplib] leave a lab with one vial, which the other commands read correctly. *)
Theorem C71_onerun : forall load solve t d v, lookup t [] = Some Dir -> lab_in_place t d Onerun [v] -> well_formed t -> load v = Ok tt ->
  store_of t d Onerun (v_uuid v) = NoFile ->
  exists t', onerun_command load solve d (Ok v) t = (t', Ok tt) /\
    has_experiment t' d Onerun "experiment.json" [v] /\
    match o_prize (solve v) with
    | Some z =>
        lookup t' [Name (dataset_value d); Name "onerun"; Name "results.json"] = Some (File (Prizes [(v_uuid v, z)])) /\
        lookup t' [Name (dataset_value d); Name "onerun"; Uid (v_uuid v); UidJson (v_uuid v)] = Some (File (Prize z)) /\
        snd (nmissing_command d Onerun t') = Ok (0, 1) /\
        snd (infeasible_command d Onerun t') = Ok (if Z.ltb z (v_quota v) then [v_uuid v] else [])
    | None =>
        lookup t' [Name (dataset_value d); Name "onerun"; Name "results.json"] = Some (File (Prizes [])) /\
        snd (nmissing_command d Onerun t') = Ok (1, 1) /\ snd (infeasible_command d Onerun t') = Ok []
    end.
Proof. exact onerun_ok. Qed.
Print Assumptions C71_onerun.

(** Without lab_dir every command raises FileNotFoundError and makes nothing. *)
Theorem C71_no_lab_dir : forall load solve d e v vs k n b t, lookup t [] = None -> well_formed t ->
  setup_command d e (Ok vs) t = (t, Throw FileNotFoundErrorPy) /\ lab_command load solve d e (Ok vs) t = (t, Throw FileNotFoundErrorPy) /\
  onerun_command load solve d (Ok v) t = (t, Throw FileNotFoundErrorPy) /\
  tree_batch_command load solve d e k n b t = (t, Throw FileNotFoundErrorPy) /\
  tree_missing_command d e t = (t, Throw FileNotFoundErrorPy) /\ nmissing_command d e t = (t, Throw FileNotFoundErrorPy) /\
  infeasible_command d e t = (t, Throw FileNotFoundErrorPy).
Proof. exact no_lab_dir_commands. Qed.
Print Assumptions C71_no_lab_dir.

(** For an experiment that was never set up the commands that read it make its directory and raise FileNotFoundError. *)
Theorem C71_never_set_up : forall load solve t d e k n, lookup t [] = Some Dir -> (forall c, lookup t [Name (dataset_value d)] <> Some (File c)) ->
  (forall c, lookup t [Name (dataset_value d); Name (experiment_value e)] <> Some (File c)) ->
  lookup t [Name (dataset_value d); Name (experiment_value e); Name "experiment.json"] = None ->
  exists t', nmissing_command d e t = (t', Throw FileNotFoundErrorPy) /\ infeasible_command d e t = (t', Throw FileNotFoundErrorPy) /\
    tree_missing_command d e t = (t', Throw FileNotFoundErrorPy) /\
    tree_batch_command load solve d e k n false t = (t', Throw FileNotFoundErrorPy) /\
    lookup t' [Name (dataset_value d)] = Some Dir /\ lookup t' [Name (dataset_value d); Name (experiment_value e)] = Some Dir /\
    forall p, p <> [Name (dataset_value d)] -> p <> [Name (dataset_value d); Name (experiment_value e)] -> lookup t' p = lookup t p.
Proof. exact never_set_up. Qed.
Print Assumptions C71_never_set_up.

(** [zip] makes for every experiment an archive of all that is in its directory, and changes nothing else. *)
Theorem C71_zip : forall d es t, well_formed t -> lookup t [Name (dataset_value d)] = Some Dir ->
  (forall e, In e es -> lookup t (archive_place d e) <> Some Dir /\ lookup t [Name (dataset_value d); Name (experiment_value e)] <> None) ->
  exists t', zip_command d es t = (t', Ok tt) /\ well_formed t' /\
    changes_only (fun p => exists e, In e es /\ p = archive_place d e) t t' /\
    forall e, In e es -> exists a, lookup t' (archive_place d e) = Some (File (Archive a)) /\ archive_of t d e a.
Proof. exact zip_ok. Qed.
Print Assumptions C71_zip.

(** What [zip] archived in one lab [unzip] puts back in any lab with these archives: every file and directory of the experiments is
    as it was, and all else in the other lab stays. *)
Theorem C71_roundtrip : forall t d es t1 t2, well_formed t -> lookup t [Name (dataset_value d)] = Some Dir ->
  (forall e, In e es -> lookup t (archive_place d e) <> Some Dir /\ lookup t [Name (dataset_value d); Name (experiment_value e)] = Some Dir) ->
  zip_command d es t = (t1, Ok tt) -> lookup t2 [Name (dataset_value d)] = Some Dir ->
  (forall e, In e es -> lookup t2 (archive_place d e) = lookup t1 (archive_place d e)) ->
  (forall e p, In e es -> at_or_below [Name (dataset_value d); Name (experiment_value e)] p -> ~ clash (lookup t p) (lookup t2 p)) ->
  exists t3, unzip_command d es t2 = (t3, Ok tt) /\
    (forall e p, In e es -> at_or_below [Name (dataset_value d); Name (experiment_value e)] p ->
       lookup t3 p = match lookup t p with Some n => Some n | None => lookup t2 p end) /\
    changes_only (fun p => exists e, In e es /\ at_or_below [Name (dataset_value d); Name (experiment_value e)] p) t2 t3.
Proof. exact roundtrip. Qed.
Print Assumptions C71_roundtrip.

(** ** Concrete cases *)

Definition va := mkVial 1 5. Definition vb := mkVial 2 5. Definition vc := mkVial 3 5.
Definition reads_all (v : vial) : res unit := Ok tt.
(** Prize 7 for the first, an exception for the second, prize 3 for the third. *)
Definition solves (v : vial) : outcome :=
  mkOutcome [("logs.txt", Text)] (match v_uuid v with 1 => Some 7%Z | 2 => None | _ => Some 3%Z end).
Definition solves_all (v : vial) : outcome := mkOutcome [] (Some 8%Z).
Definition lab0 : tree := [([], Dir)].
Definition lab1 : tree := fst (lab_command reads_all solves Londonaq Baseline (Ok [va; vb; vc]) lab0).

Lemma lab0_wf : well_formed lab0.
Proof. split; [repeat constructor; intros []|]. intros p c n L. destruct p; discriminate L. Qed.
Lemma lab1_wf : well_formed lab1.
Proof.
  destruct (C71_elsewhere reads_all solves Londonaq Baseline (Ok [va; vb; vc]) (Ok va) 0 0 true lab0 lab0_wf) as (_ & [W _] & _). exact W.
Qed.
Lemma lab1_place : vials_in_place lab1 Londonaq Baseline [va; vb; vc].
Proof. intros v I. repeat (destruct I as [<-|I]; [split; [intros c|]; vm_compute; discriminate|]). destruct I. Qed.

Example C71_lab_ex : lab_in_place lab0 Londonaq Baseline [va; vb; vc] /\ NoDup (map v_uuid [va; vb; vc]) /\
  snd (lab_command reads_all solves Londonaq Baseline (Ok [va; vb; vc]) lab0) = Ok tt /\
  has_experiment lab1 Londonaq Baseline "experiment.json" [va; vb; vc] /\
  lookup lab1 [Name "londonaq"; Name "baseline"; Name "results.json"] = Some (File (Prizes [(1, 7%Z); (3, 3%Z)])) /\
  map (store_of lab1 Londonaq Baseline) [1; 2; 3] = [ResultFile 7; NoFile; ResultFile 3]%Z /\
  lookup lab1 [Name "londonaq"; Name "baseline"; Uid 2; Name "logs.txt"] = Some (File Text).
Proof.
  split; [repeat split; try (intros c); try discriminate; vm_compute; discriminate|]. split; [repeat constructor; cbn; intuition discriminate|].
  split; [vm_compute; reflexivity|]. split; [repeat split; vm_compute; reflexivity|]. repeat split; vm_compute; reflexivity.
Qed.
Example C71_reading_ex : snd (nmissing_command Londonaq Baseline lab1) = Ok (1, 3) /\ snd (infeasible_command Londonaq Baseline lab1) = Ok [3] /\
  lookup (fst (tree_missing_command Londonaq Baseline lab1)) [Name "londonaq"; Name "baseline"; Name "missing_experiment.json"] =
    Some (File (Vials [vb])).
Proof. repeat split; vm_compute; reflexivity. Qed.
Example C71_reading_case : exists t' m, nmissing_command Londonaq Baseline lab1 = (t', Ok (List.length m, 3)) /\
  selected (without_result (store_of lab1 Londonaq Baseline)) [va; vb; vc] m.
Proof.
  destruct (C71_nmissing lab1 Londonaq Baseline [va; vb; vc]) as (t' & m & E & S & _).
  - repeat split; vm_compute; reflexivity.
  - exact lab1_place.
  - intros v I. repeat (destruct I as [<-|I]; [vm_compute; discriminate|]). destruct I.
  - exists t', m. split; [exact E|exact S].
Qed.
Example C71_stops_ex : exists t', lab_command (fun v => if Nat.eqb (v_uuid v) 2 then Throw ValueErrorPy else Ok tt) solves Londonaq Baseline
    (Ok [va; vb; vc]) lab0 = (t', Throw ValueErrorPy) /\
  lookup t' [Name "londonaq"; Name "baseline"; Name "experiment.json"] = Some (File (Vials [va; vb; vc])) /\
  lookup t' [Name "londonaq"; Name "baseline"; Name "results.json"] = None /\
  map (store_of t' Londonaq Baseline) [1; 2; 3] = [ResultFile 7; NoFile; NoFile]%Z.
Proof. eexists. split; [vm_compute; reflexivity|]. split; [vm_compute; reflexivity|]. split; vm_compute; reflexivity. Qed.
Example C71_batch_ex : let t := fst (setup_command Tspwplib TailingOff (Ok [va; vb; vc]) lab0) in
  let t' := fst (tree_batch_command reads_all solves Tspwplib TailingOff 1 2 false t) in
  snd (tree_batch_command reads_all solves Tspwplib TailingOff 1 2 false t) = Ok tt /\
  map (store_of t' Tspwplib TailingOff) [1; 2; 3] = [NoFile; NoFile; ResultFile 3]%Z /\
  lookup t' [Name "tspwplib"; Name "tailing_off"; Name "results.json"] = None.
Proof. repeat split; vm_compute; reflexivity. Qed.
Example C71_rerun_case : exists t1 t2 t3, tree_missing_command Londonaq Baseline lab1 = (t1, Ok tt) /\
  tree_batch_command reads_all solves_all Londonaq Baseline 0 3 true t1 = (t2, Ok tt) /\
  nmissing_command Londonaq Baseline t2 = (t3, Ok (0, 3)) /\
  map (store_of t2 Londonaq Baseline) [1; 2; 3] = [ResultFile 7; ResultFile 8; ResultFile 3]%Z.
Proof.
  destruct (C71_rerun reads_all solves_all lab1 Londonaq Baseline [va; vb; vc]) as (t1 & t2 & t3 & A & B & C & D).
  - repeat split; vm_compute; reflexivity.
  - exact lab1_place.
  - exact lab1_wf.
  - vm_compute. discriminate.
  - intros v I. repeat (destruct I as [<-|I]; [vm_compute; discriminate|]). destruct I.
  - repeat constructor; cbn; intuition discriminate.
  - intros v _ _. split; [reflexivity|discriminate].
  - exists t1, t2, t3. split; [exact A|]. split; [exact B|]. split; [exact C|].
    pose proof (D va (or_introl eq_refl)) as Da. pose proof (D vb (or_intror (or_introl eq_refl))) as Db.
    pose proof (D vc (or_intror (or_intror (or_introl eq_refl)))) as Dc. cbn [map]. cbn [v_uuid va vb vc] in Da, Db, Dc. rewrite Da, Db, Dc.
    vm_compute. reflexivity.
Qed.
Example C71_onerun_ex : let t := fst (onerun_command reads_all solves Tspwplib (Ok vc) lab0) in
  lab_in_place lab0 Tspwplib Onerun [vc] /\ store_of lab0 Tspwplib Onerun 3 = NoFile /\
  lookup t [Name "tspwplib"; Name "onerun"; Name "results.json"] = Some (File (Prizes [(3, 3%Z)])) /\
  snd (nmissing_command Tspwplib Onerun t) = Ok (0, 1) /\ snd (infeasible_command Tspwplib Onerun t) = Ok [3] /\
  snd (nmissing_command Tspwplib Onerun (fst (onerun_command reads_all solves Tspwplib (Ok vb) lab0))) = Ok (1, 1).
Proof.
  split; [repeat split; try (intros c); try discriminate; vm_compute; discriminate|]. repeat split; vm_compute; reflexivity.
Qed.
Example C71_errors_ex : snd (nmissing_command Londonaq Baseline []) = Throw FileNotFoundErrorPy /\
  snd (nmissing_command Londonaq Baseline lab0) = Throw FileNotFoundErrorPy /\
  lookup (fst (nmissing_command Londonaq Baseline lab0)) [Name "londonaq"; Name "baseline"] = Some Dir.
Proof. repeat split; vm_compute; reflexivity. Qed.

(** The archive of the lab above, unpacked in an empty lab. *)
Definition lab2 : tree := fst (zip_command Londonaq [Baseline] lab1).
Definition moved : tree :=
  match lookup lab2 [Name "londonaq"; Name "baseline.zip"] with
  | Some n => put (put lab0 [Name "londonaq"] Dir) [Name "londonaq"; Name "baseline.zip"] n
  | None => []
  end.
Example C71_roundtrip_case : exists t3, unzip_command Londonaq [Baseline] moved = (t3, Ok tt) /\
  forall p, at_or_below [Name "londonaq"; Name "baseline"] p -> lookup t3 p = match lookup lab1 p with Some n => Some n | None => lookup moved p end.
Proof.
  destruct (C71_roundtrip lab1 Londonaq [Baseline] lab2 moved) as (t3 & E & A & _).
  - exact lab1_wf.
  - vm_compute. reflexivity.
  - intros e [<-|[]]. split; [vm_compute; discriminate|vm_compute; reflexivity].
  - vm_compute. reflexivity.
  - vm_compute. reflexivity.
  - intros e [<-|[]]. vm_compute. reflexivity.
  - intros e p [<-|[]] [r ->] C. 
    assert (N : lookup moved ([Name "londonaq"; Name "baseline"] ++ r) = None) by (vm_compute; reflexivity).
    change (Name (dataset_value Londonaq)) with (Name "londonaq") in C. change (Name (experiment_value Baseline)) with (Name "baseline") in C.
    rewrite N in C. destruct C as [(c & _ & X)|(c & _ & X)]; discriminate X.
  - exists t3. split; [exact E|]. intros p B. exact (A Baseline p (or_introl eq_refl) B).
Qed.
Example C71_roundtrip_ex : let t3 := fst (unzip_command Londonaq [Baseline] moved) in
  snd (nmissing_command Londonaq Baseline t3) = Ok (1, 3) /\ snd (infeasible_command Londonaq Baseline t3) = Ok [3] /\
  lookup t3 [Name "londonaq"; Name "baseline"; Uid 2; Name "logs.txt"] = Some (File Text).
Proof. repeat split; vm_compute; reflexivity. Qed.

(** Whatever lies in the directory of the lab, every command ends with a value or with an exception. *)
Theorem C71_definite : forall load solve d e vials problem k n only es t,
  (forall v, ends (load v)) -> ends vials -> ends problem ->
  ends (snd (setup_command d e vials t)) /\ ends (snd (lab_command load solve d e vials t)) /\
  ends (snd (onerun_command load solve d problem t)) /\ ends (snd (tree_batch_command load solve d e k n only t)) /\
  ends (snd (tree_missing_command d e t)) /\ ends (snd (nmissing_command d e t)) /\ ends (snd (infeasible_command d e t)) /\
  ends (snd (zip_command d es t)) /\ ends (snd (unzip_command d es t)).
Proof.
  intros load solve d e vials problem k n only es t L V P.
  destruct (commands_definite load solve d e vials problem k n only es L V P) as (A & B & C & D & E & F & G & H & I).
  split; [exact (A t)|]. split; [exact (B t)|]. split; [exact (C t)|]. split; [exact (D t)|]. split; [exact (E t)|].
  split; [exact (F t)|]. split; [exact (G t)|]. split; [exact (H t)|exact (I t)].
Qed.
Print Assumptions C71_definite.

(** A file in the place of a directory of the lab stops every command, with a FileExistsError, and nothing is changed; a file in the
    place of lab_dir is another OSError. *)
Theorem C71_file_in_the_way : forall load solve d e vs v k n only t c x,
  (lookup t [Name (dataset_value d)] = Some (File c) /\ x = FileExistsErrorPy \/
   lookup t [Name (dataset_value d)] = None /\ lookup t [] = Some (File c) /\ x = OSErrorPy) ->
  setup_command d e (Ok vs) t = (t, Throw x) /\ lab_command load solve d e (Ok vs) t = (t, Throw x) /\
  onerun_command load solve d (Ok v) t = (t, Throw x) /\ tree_batch_command load solve d e k n only t = (t, Throw x) /\
  tree_missing_command d e t = (t, Throw x) /\ nmissing_command d e t = (t, Throw x) /\ infeasible_command d e t = (t, Throw x).
Proof.
  intros load solve d e vs v k n only t c x H. apply commands_stop. unfold new_lab.
  destruct H as [[E ->]|(E & R & ->)]; [now apply (mkdir_file _ c)|].
  unfold mkdir. change (data_path d) with [Name (dataset_value d)]. rewrite E. cbn [removelast]. now rewrite R.
Qed.
Print Assumptions C71_file_in_the_way.

(** The same for the directory of the experiment. *)
Theorem C71_file_for_experiment : forall load solve d e vs k n only t c, lookup t [Name (dataset_value d)] = Some Dir ->
  lookup t [Name (dataset_value d); Name (experiment_value e)] = Some (File c) ->
  stopped FileExistsErrorPy t (setup_command d e (Ok vs)) /\ stopped FileExistsErrorPy t (lab_command load solve d e (Ok vs)) /\
  stopped FileExistsErrorPy t (tree_batch_command load solve d e k n only) /\ stopped FileExistsErrorPy t (tree_missing_command d e) /\ stopped FileExistsErrorPy t (nmissing_command d e) /\
  stopped FileExistsErrorPy t (infeasible_command d e).
Proof.
  intros load solve d e vs k n only t c D E.
  assert (N : new_lab d t = (t, Ok tt)) by now apply mkdir_dir.
  assert (X : mkdir (exp_path d e) t = (t, Throw FileExistsErrorPy)) by now apply (mkdir_file _ c).
  split; [|split; [|split; [|split; [|split]]]];
    unfold stopped, setup_command, lab_command, tree_batch_command, tree_missing_command, nmissing_command, infeasible_command,
      write_experiment_to_file, read_experiment_from_file, get_experiment_dir, cbind, lift; rewrite N, X; reflexivity.
Qed.
Print Assumptions C71_file_for_experiment.

(** The exception for each kind of thing that is there in the place of the file of the experiment: the commands that read it stop
    with it and change nothing. *)
Theorem C71_unreadable : forall load solve d e k n (only : bool) t x node, lookup t [Name (dataset_value d)] = Some Dir ->
  lookup t [Name (dataset_value d); Name (experiment_value e)] = Some Dir ->
  lookup t [Name (dataset_value d); Name (experiment_value e);
    Name (if only then "missing_experiment.json" else "experiment.json")] = node ->
  In (node, x) [(None, FileNotFoundErrorPy); (Some Dir, OSErrorPy); (Some (File Text), JSONDecodeErrorPy);
    (Some (File BadJson), ValidationErrorPy)] \/
  x = JSONDecodeErrorPy /\ (exists es, node = Some (File (Archive es))) \/
  x = ValidationErrorPy /\ ((exists z, node = Some (File (Prize z))) \/ exists rs, node = Some (File (Prizes rs))) ->
  tree_batch_command load solve d e k n only t = (t, Throw x) /\
  (only = false -> tree_missing_command d e t = (t, Throw x) /\ nmissing_command d e t = (t, Throw x) /\
    infeasible_command d e t = (t, Throw x)).
Proof.
  intros load solve d e k n only t x node D E F H. apply readers_stop; [exact D|].
  rewrite (read_exp_at d e only t E node F). clear F.
  destruct H as [H|[[-> [es ->]]|[-> [[z ->]|[rs ->]]]]]; [|reflexivity..].
  destruct H as [H|[H|[H|[H|[]]]]]; injection H as <- <-; reflexivity.
Qed.
Print Assumptions C71_unreadable.

(** A directory in the place of the file of the experiment: it cannot be written. *)
Theorem C71_unwritable : forall d e vs t, lookup t [Name (dataset_value d)] = Some Dir ->
  lookup t [Name (dataset_value d); Name (experiment_value e)] = Some Dir ->
  lookup t [Name (dataset_value d); Name (experiment_value e); Name "experiment.json"] = Some Dir ->
  setup_command d e (Ok vs) t = (t, Throw OSErrorPy).
Proof.
  intros d e vs t D E F.
  assert (N : new_lab d t = (t, Ok tt)) by now apply mkdir_dir.
  assert (X : mkdir (exp_path d e) t = (t, Ok tt)) by now apply mkdir_dir.
  unfold setup_command, write_experiment_to_file, get_experiment_dir, cbind, lift. rewrite N, X. cbn [ret].
  unfold write_file. change (exp_file d e (experiment_filename false)) with
    [Name (dataset_value d); Name (experiment_value e); Name "experiment.json"]. now rewrite F.
Qed.
Print Assumptions C71_unwritable.

(** The file of a result: the exception for each thing that may be in its place, or in the place of its directory; a result that
    cannot be written changes nothing. *)
Theorem C71_result_errors : forall t p u z,
  (lookup t p = None -> read_from_json_file p u t = (t, Throw FileNotFoundErrorPy) /\
    write_to_json_file p u z t = (t, Throw FileNotFoundErrorPy)) /\
  (forall c, lookup t p = Some (File c) -> lookup t (p ++ [UidJson u]) = None ->
    read_from_json_file p u t = (t, Throw FileNotFoundErrorPy) /\ write_to_json_file p u z t = (t, Throw OSErrorPy)) /\
  (lookup t p = Some Dir -> lookup t (p ++ [UidJson u]) = Some Dir ->
    read_from_json_file p u t = (t, Throw OSErrorPy) /\ write_to_json_file p u z t = (t, Throw OSErrorPy)) /\
  (lookup t p = Some Dir -> lookup t (p ++ [UidJson u]) = Some (File BadJson) ->
    read_from_json_file p u t = (t, Throw ValidationErrorPy)).
Proof.
  intros t p u z. unfold write_to_json_file, read_from_json_file, write_file.
  split; [intros ->; now split|]. split; [intros c P E|split; intros P E].
  - rewrite P, E, removelast_last, P. now split.
  - rewrite P, E. now split.
  - now rewrite P, E.
Qed.
Print Assumptions C71_result_errors.

(** A file in a directory that is missing, or that is a file, cannot be written. *)
Theorem C71_write_errors : forall t p a c, lookup t (p ++ [a]) = None ->
  (lookup t p = None -> write_file (p ++ [a]) c t = (t, Throw FileNotFoundErrorPy)) /\
  (forall c', lookup t p = Some (File c') -> write_file (p ++ [a]) c t = (t, Throw OSErrorPy)).
Proof. intros t p a c E. unfold write_file. rewrite E, removelast_last. split; [intros ->|intros c' ->]; reflexivity. Qed.
Print Assumptions C71_write_errors.

(** The exceptions of the archives, which change nothing; but if only the directory of the experiment is missing, the archive is
    there afterwards, without entries. *)
Theorem C71_archive_errors : forall t d e es,
  let D := [Name (dataset_value d)] in
  (lookup t D = None -> zip_command d (e :: es) t = (t, Throw FileNotFoundErrorPy)) /\
  (forall c, lookup t D = Some (File c) -> zip_command d (e :: es) t = (t, Throw OSErrorPy)) /\
  (lookup t D = Some Dir -> lookup t (archive_place d e) = Some Dir -> zip_command d (e :: es) t = (t, Throw OSErrorPy)) /\
  (lookup t D = Some Dir -> lookup t (archive_place d e) <> Some Dir -> lookup t [Name (dataset_value d); Name (experiment_value e)] = None ->
    exists t', zip_command d (e :: es) t = (t', Throw FileNotFoundErrorPy) /\ lookup t' (archive_place d e) = Some (File (Archive [])) /\
      changes_only (fun p => p = archive_place d e) t t') /\
  ((forall a, lookup t (archive_place d e) <> Some (File (Archive a))) -> unzip_command d (e :: es) t = (t, Throw OSErrorPy)).
Proof.
  intros t d e es D. subst D.
  assert (Z : zip_command d (e :: es) t = cbind (zip_experiment d e) (fun _ => zip_command d es) t).
  { unfold zip_command. cbn [foldC]. unfold cbind. destruct (zip_experiment d e t) as [t' [[]| | |]]; reflexivity. }
  rewrite Z. unfold cbind, zip_experiment, zip_path, exp_path, data_path, archive_place. cbn [app].
  split; [intros ->; reflexivity|]. split; [intros c ->; reflexivity|]. split; [intros -> ->; reflexivity|]. split.
  - intros -> A ->. eexists. split; [|split; [apply lookup_put_same|]].
    + destruct (lookup t [Name (dataset_value d); Name (experiment_value e ++ ".zip")]) as [[|c]|]; [contradiction| |]; reflexivity.
    + intros q Q. apply lookup_put_other. intros E. now apply Q.
  - intros A. unfold unzip_command. cbn [foldC]. unfold cbind, unzip_experiment, zip_path, data_path. cbn [app].
    destruct (lookup t [Name (dataset_value d); Name (experiment_value e ++ ".zip")]) as [[|[]]|] eqn:E; try reflexivity.
    now destruct (A es0).
Qed.
Print Assumptions C71_archive_errors.

(** A tree with things in the wrong places meets the hypotheses. *)
Example C71_wrong_places_ex :
  let t : tree := [([], Dir); ([Name "londonaq"], Dir); ([Name "tspwplib"], File Text);
     ([Name "londonaq"; Name "baseline"], Dir); ([Name "londonaq"; Name "baseline"; Name "experiment.json"], File Text);
     ([Name "londonaq"; Name "dryrun"], File BadJson); ([Name "londonaq"; Name "tailing_off"], Dir);
     ([Name "londonaq"; Name "tailing_off"; Name "experiment.json"], Dir); ([Name "londonaq"; Name "baseline.zip"], Dir)] in
  nmissing_command Tspwplib Baseline t = (t, Throw FileExistsErrorPy) /\
  nmissing_command Londonaq Dryrun t = (t, Throw FileExistsErrorPy) /\
  nmissing_command Londonaq Baseline t = (t, Throw JSONDecodeErrorPy) /\
  nmissing_command Londonaq TailingOff t = (t, Throw OSErrorPy) /\
  setup_command Londonaq TailingOff (Ok [va]) t = (t, Throw OSErrorPy) /\
  zip_command Londonaq [Baseline] t = (t, Throw OSErrorPy) /\ zip_command Tspwplib [Baseline] t = (t, Throw OSErrorPy) /\
  unzip_command Londonaq [Baseline] t = (t, Throw OSErrorPy).
Proof. repeat split; vm_compute; reflexivity. Qed.

(** ** Claims that are false *)

(** That the commands which only print leave the tree as it is: [nmissing] makes the directories of the vials. *)
Theorem C71_reading_refuted : exists t d e p, well_formed t /\ lookup t p = None /\ lookup (fst (nmissing_command d e t)) p = Some Dir /\
  snd (nmissing_command d e t) = Ok (1, 1).
Proof.
  exists (fst (setup_command Londonaq Baseline (Ok [va]) lab0)), Londonaq, Baseline, [Name "londonaq"; Name "baseline"; Uid 1].
  split; [|repeat split; vm_compute; reflexivity].
  destruct (C71_elsewhere reads_all solves Londonaq Baseline (Ok [va]) (Ok va) 0 0 true lab0 lab0_wf) as ([W _] & _). exact W.
Qed.
Print Assumptions C71_reading_refuted.

(** That zipping again cannot lose anything: after the directory is gone the archive is replaced by an empty one, and the results
    are lost. *)
Theorem C71_zip_again_refuted : exists t d e a p, lookup t (archive_place d e) = Some (File (Archive a)) /\ In (p, File (Prize 7)) a /\
  snd (unzip_command d [e] t) = Ok tt /\ lookup (fst (unzip_command d [e] t)) (Name (dataset_value d) :: p) = Some (File (Prize 7)) /\
  snd (zip_command d [e] t) = Throw FileNotFoundErrorPy /\
  lookup (fst (zip_command d [e] t)) (archive_place d e) = Some (File (Archive [])).
Proof.
  exists moved, Londonaq, Baseline. eexists. exists [Name "baseline"; Uid 1; UidJson 1].
  split; [vm_compute; reflexivity|]. split; [vm_compute; tauto|]. repeat split; vm_compute; reflexivity.
Qed.
Print Assumptions C71_zip_again_refuted.

(** That the directory after [unzip] is the archived one: what came after [zip] is still there. *)
Theorem C71_unzip_refuted : exists t d e u, let t1 := fst (zip_command d [e] t) in
  let t2 := put (put t1 [Name (dataset_value d); Name (experiment_value e); Uid u] Dir)
    [Name (dataset_value d); Name (experiment_value e); Uid u; UidJson u] (File (Prize 9)) in
  store_of t d e u = NoFile /\ snd (unzip_command d [e] t2) = Ok tt /\ store_of (fst (unzip_command d [e] t2)) d e u = ResultFile 9.
Proof. exists lab1, Londonaq, Baseline, 2. repeat split; vm_compute; reflexivity. Qed.
Print Assumptions C71_unzip_refuted.

(** That [setup] for an experiment that was run keeps its results in view: the vials have new uuids, so all are missing, although
    the files of the old results are still there. *)
Theorem C71_setup_again_refuted : exists t d e v v', v_quota v' = v_quota v /\ v_uuid v' <> v_uuid v /\
  snd (nmissing_command d e t) = Ok (0, 1) /\ store_of t d e (v_uuid v) = ResultFile 7 /\
  let t' := fst (setup_command d e (Ok [v']) t) in
  snd (nmissing_command d e t') = Ok (1, 1) /\ store_of t' d e (v_uuid v) = ResultFile 7.
Proof.
  exists (fst (lab_command reads_all solves Londonaq Baseline (Ok [va]) lab0)), Londonaq, Baseline, va, (mkVial 9 5).
  split; [reflexivity|]. split; [discriminate|]. repeat split; vm_compute; reflexivity.
Qed.
Print Assumptions C71_setup_again_refuted.

(** That the commands for one run collect their runs: the second replaces the vial and the result of the first in experiment.json
    and results.json. *)
Theorem C71_onerun_again_refuted : exists t d v v', let t1 := fst (onerun_command reads_all solves d (Ok v) t) in
  let t2 := fst (onerun_command reads_all solves d (Ok v') t1) in
  lookup t1 [Name (dataset_value d); Name "onerun"; Name "results.json"] = Some (File (Prizes [(1, 7%Z)])) /\
  lookup t2 [Name (dataset_value d); Name "onerun"; Name "results.json"] = Some (File (Prizes [(3, 3%Z)])) /\
  lookup t2 [Name (dataset_value d); Name "onerun"; Name "experiment.json"] = Some (File (Vials [v'])) /\
  store_of t2 d Onerun (v_uuid v) = ResultFile 7.
Proof. exists lab0, Tspwplib, va, vc. repeat split; vm_compute; reflexivity. Qed.
Print Assumptions C71_onerun_again_refuted.
