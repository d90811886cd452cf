(** Proofs about the files of a lab *)
From Coq Require Import String.
From Verif Require Import Base P_Base M_Lab M_Compare M_Csv M_LabTree Spec_Lab Spec_LabTree P_Lab.
Open Scope string_scope.
Open Scope list_scope.
Open Scope nat_scope.

(** ** Paths and trees *)

Lemma comp_eqb_spec a b : Bool.reflect (a = b) (comp_eqb a b).
Proof.
  destruct a as [s|u|u], b as [s'|u'|u']; cbn [comp_eqb]; try (constructor; discriminate).
  - destruct (String.eqb_spec s s'); constructor; congruence.
  - destruct (Nat.eqb_spec u u'); constructor; congruence.
  - destruct (Nat.eqb_spec u u'); constructor; congruence.
Qed.
Lemma path_eqb_spec p : forall q, Bool.reflect (p = q) (path_eqb p q).
Proof.
  induction p as [|a p IH]; intros [|b q]; cbn [path_eqb]; try (constructor; congruence).
  destruct (comp_eqb_spec a b); cbn [andb]; [|constructor; congruence].
  destruct (IH q); constructor; congruence.
Qed.
Lemma path_eqb_refl p : path_eqb p p = true.
Proof. destruct (path_eqb_spec p p); congruence. Qed.
Lemma path_dec (p q : path) : {p = q} + {p <> q}.
Proof. destruct (path_eqb_spec p q); auto. Qed.

Lemma lookup_cons q n t p : lookup ((q, n) :: t) p = if path_eqb q p then Some n else lookup t p.
Proof. unfold lookup. cbn [find fst]. destruct (path_eqb q p); reflexivity. Qed.
Lemma lookup_filter t p q : p <> q -> lookup (filter (fun e => negb (path_eqb (fst e) p)) t) q = lookup t q.
Proof.
  intros N. induction t as [|[k n] t IH]; [reflexivity|]. cbn [filter fst].
  destruct (path_eqb_spec k p) as [->|K]; cbn [negb].
  - rewrite lookup_cons. destruct (path_eqb_spec p q); [contradiction|exact IH].
  - rewrite !lookup_cons, IH. reflexivity.
Qed.
Lemma lookup_put t p n q : lookup (put t p n) q = if path_eqb p q then Some n else lookup t q.
Proof.
  unfold put. rewrite lookup_cons. destruct (path_eqb_spec p q); [reflexivity|]. now apply lookup_filter.
Qed.
Lemma lookup_put_same t p n : lookup (put t p n) p = Some n.
Proof. rewrite lookup_put, path_eqb_refl. reflexivity. Qed.
Lemma lookup_put_other t p n q : p <> q -> lookup (put t p n) q = lookup t q.
Proof. intros N. rewrite lookup_put. destruct (path_eqb_spec p q); [contradiction|reflexivity]. Qed.

Lemma lookup_In t p n : NoDup (map fst t) -> (lookup t p = Some n <-> In (p, n) t).
Proof.
  induction t as [|[k m] t IH]; intros D; [split; [discriminate|intros []]|].
  inversion D as [|? ? NI D']; subst. rewrite lookup_cons. specialize (IH D'). destruct (path_eqb_spec k p) as [->|K].
  - split.
    + intros E. injection E as ->. left. reflexivity.
    + intros [E|I]; [congruence|]. exfalso. apply NI. change p with (fst (p, n)). now apply in_map.
  - rewrite IH. split; [now right|]. intros [E|I]; [congruence|exact I].
Qed.

Lemma NoDup_filter_keys (f : path * node -> bool) t : NoDup (map fst t) -> NoDup (map fst (filter f t)).
Proof.
  induction t as [|a t IH]; intros D; [constructor|]. inversion D as [|? ? NI D']; subst. cbn [filter].
  destruct (f a); [|now apply IH]. cbn [map]. constructor; [|now apply IH].
  intros I. apply NI. apply in_map_iff in I as [x [E I]]. rewrite <- E. apply in_map. now apply filter_In in I as [I _].
Qed.
Lemma put_keys t p n : NoDup (map fst t) -> NoDup (map fst (put t p n)).
Proof.
  intros D. unfold put. cbn [map fst]. constructor; [|now apply NoDup_filter_keys].
  intros I. apply in_map_iff in I as [[k m] [E I]]. apply filter_In in I as [_ N]. cbn [fst] in *. subst k.
  rewrite path_eqb_refl in N. discriminate.
Qed.

Lemma snoc_inj (p q : path) a b : p ++ [a] = q ++ [b] -> p = q /\ a = b.
Proof. intros E. now apply app_inj_tail in E. Qed.
Lemma snoc_neq (p : path) a : p <> p ++ [a].
Proof. intros E. apply (f_equal (@List.length comp)) in E. rewrite app_length in E. cbn in E. lia. Qed.
Lemma removelast_snoc (p : path) c : removelast (p ++ [c]) = p.
Proof. rewrite removelast_app by discriminate. cbn [removelast]. apply app_nil_r. Qed.

(** ** Changing one path *)

Lemma put_wf t p c n : well_formed t -> lookup t p = Some Dir -> (n = Dir \/ lookup t (p ++ [c]) <> Some Dir) ->
  well_formed (put t (p ++ [c]) n).
Proof.
  intros [K W] P N. split; [now apply put_keys|]. intros q a m L.
  rewrite lookup_put in L. destruct (path_eqb_spec (p ++ [c]) (q ++ [a])) as [E|E].
  - apply snoc_inj in E as [<- <-]. rewrite lookup_put_other; [exact P|]. intros X. symmetry in X. now apply snoc_neq in X.
  - specialize (W q a m L). rewrite lookup_put. destruct (path_eqb_spec (p ++ [c]) q) as [E'|E']; [|exact W].
    destruct N as [->|N]; [reflexivity|]. subst q. contradiction.
Qed.

(** A command that keeps the tree well formed and changes it only at [P]. *)
Definition within {A} (P : path -> Prop) (m : cmd A) : Prop :=
  forall t, well_formed t -> well_formed (fst (m t)) /\ changes_only P t (fst (m t)).

Lemma within_ret {A} P (a : A) : within P (ret a).
Proof. intros t W. split; [exact W|]. intros p _. reflexivity. Qed.
Lemma within_pure {A} P (f : tree -> res A) : within P (fun t => (t, f t)).
Proof. intros t W. split; [exact W|]. intros p _. reflexivity. Qed.
Lemma within_lift {A} P (r : res A) : within P (lift r).
Proof. intros t W. split; [exact W|]. intros p _. reflexivity. Qed.
Lemma within_attempt {A} P (m : cmd A) : within P m -> within P (attempt m).
Proof. intros H t W. unfold attempt. specialize (H t W). destruct (m t) as [t' r]. exact H. Qed.
Lemma within_bind {A B} P (m : cmd A) (f : A -> cmd B) : within P m -> (forall a, within P (f a)) -> within P (cbind m f).
Proof.
  intros H F t W. unfold cbind. specialize (H t W). destruct (m t) as [t' r]. cbn [fst] in H. destruct H as [W' C].
  destruct r as [a|x|u|]; try (split; [exact W'|exact C]).
  destruct (F a t' W') as [W2 C2]. split; [exact W2|]. intros p N. rewrite (C2 p N). now apply C.
Qed.
Lemma within_fold {A S} P (f : S -> A -> cmd S) : (forall s a, within P (f s a)) -> forall l s, within P (foldC f l s).
Proof.
  intros F l. induction l as [|a l IH]; intros s; [apply within_ret|]. cbn [foldC]. apply within_bind; [apply F|exact IH].
Qed.
Lemma within_weaken {A} (P Q : path -> Prop) (m : cmd A) : (forall p, P p -> Q p) -> within P m -> within Q m.
Proof. intros I H t W. destruct (H t W) as [W' C]. split; [exact W'|]. intros p N. apply C. auto. Qed.

Lemma within_mkdir (P : path -> Prop) p c : P (p ++ [c]) -> within P (mkdir (p ++ [c])).
Proof.
  intros H t W. unfold mkdir. rewrite removelast_snoc.
  destruct (lookup t (p ++ [c])) as [[|x]|] eqn:L; try (split; [exact W|intros q _; reflexivity]).
  destruct (lookup t p) as [[|x]|] eqn:L'; try (split; [exact W|intros q _; reflexivity]). cbn [fst]. split.
  - apply put_wf; auto.
  - intros q N. apply lookup_put_other. intros <-. contradiction.
Qed.
Lemma within_write (P : path -> Prop) p c x : P (p ++ [c]) -> within P (write_file (p ++ [c]) x).
Proof.
  intros H t W. unfold write_file. rewrite removelast_snoc.
  destruct (lookup t (p ++ [c])) as [[|y]|] eqn:L; try (split; [exact W|intros q _; reflexivity]).
  - cbn [fst]. split.
    + apply put_wf; [exact W| |right; rewrite L; discriminate]. destruct W as [_ W]. exact (W p c _ L).
    + intros q N. apply lookup_put_other. intros <-. contradiction.
  - destruct (lookup t p) as [[|y]|] eqn:L'; try (split; [exact W|intros q _; reflexivity]). cbn [fst]. split.
    + apply put_wf; [exact W|exact L'|right; rewrite L; discriminate].
    + intros q N. apply lookup_put_other. intros <-. contradiction.
Qed.

(** ** The commands of an experiment stay in its directory *)

Definition own (d : dataset_name) (e : experiment_name) (p : path) : Prop := p = data_path d \/ at_or_below (exp_path d e) p.

Lemma own_below d e r : own d e (exp_path d e ++ r).
Proof. right. exists r. reflexivity. Qed.
Lemma own_exp d e : own d e (exp_path d e).
Proof. right. exists []. now rewrite app_nil_r. Qed.

Lemma new_lab_own d e : within (own d e) (new_lab d).
Proof. apply (within_mkdir (own d e) [] (Name (dataset_value d))). left. reflexivity. Qed.
Lemma get_experiment_own d e : within (own d e) (get_experiment_dir d e).
Proof.
  apply within_bind; [|intros; apply within_ret]. apply (within_mkdir (own d e) (data_path d)). apply own_exp.
Qed.
Lemma get_vial_own d e u : within (own d e) (get_vial_dir d e u).
Proof.
  apply within_bind; [apply get_experiment_own|intros _]. apply within_bind; [|intros; apply within_ret].
  apply (within_mkdir (own d e) (exp_path d e)). apply own_below.
Qed.
Lemma write_own d e r c x : within (own d e) (write_file ((exp_path d e ++ r) ++ [c]) x).
Proof. apply within_write. rewrite <- app_assoc. apply own_below. Qed.
Lemma write_exp_own d e s x : within (own d e) (write_file (exp_file d e s) x).
Proof. apply (within_write (own d e) (exp_path d e)). apply own_below. Qed.
Lemma read_experiment_own d e b : within (own d e) (read_experiment_from_file d e b).
Proof. apply within_bind; [apply get_experiment_own|intros _]. apply within_pure. Qed.
Lemma write_experiment_own d e vs b : within (own d e) (write_experiment_to_file d e vs b).
Proof. apply within_bind; [apply get_experiment_own|intros _]. apply write_exp_own. Qed.
Lemma write_results_own d e rs : within (own d e) (write_results_to_file d e rs).
Proof. apply within_bind; [apply get_experiment_own|intros _]. apply write_exp_own. Qed.
Lemma read_vial_own d e u : within (own d e) (act dir <- get_vial_dir d e u; read_from_json_file dir u).
Proof. apply within_bind; [apply get_vial_own|intros dir]. apply within_pure. Qed.
Lemma missing_own d e vs : within (own d e) (tree_missing_vials d e vs).
Proof.
  apply within_fold. intros s v. apply within_bind; [apply within_attempt, read_vial_own|].
  intros [z|[]|u|]; try apply within_ret; apply within_lift.
Qed.
Lemma infeasible_own d e vs : within (own d e) (tree_infeasible_vials d e vs).
Proof.
  apply within_fold. intros s v. apply within_bind; [apply within_attempt, read_vial_own|].
  intros [z|[]|u|]; try apply within_ret; apply within_lift.
Qed.

(** The path that [get_vial_dir] returns. *)
Lemma get_vial_value d e u t t' p : get_vial_dir d e u t = (t', Ok p) -> p = vial_path d e u.
Proof.
  unfold get_vial_dir, get_experiment_dir, cbind, ret. destruct (mkdir (exp_path d e) t) as [t1 [a|x|y|]]; try discriminate.
  destruct (mkdir (vial_path d e u) t1) as [t2 [b|x|y|]]; try discriminate. congruence.
Qed.
Lemma within_vial {B} d e u (f : path -> cmd B) : within (own d e) (f (vial_path d e u)) ->
  within (own d e) (act dir <- get_vial_dir d e u; f dir).
Proof.
  intros F t W. pose proof (get_vial_own d e u t W) as G. unfold cbind. destruct (get_vial_dir d e u t) as [t' r] eqn:E.
  cbn [fst] in G. destruct G as [W' C]. destruct r as [p|x|y|]; try (split; [exact W'|exact C]).
  apply get_vial_value in E. subst p. destruct (F t' W') as [W2 C2]. split; [exact W2|]. intros q N. rewrite (C2 q N). now apply C.
Qed.
Lemma write_json_own d e u z : within (own d e) (write_to_json_file (vial_path d e u) u z).
Proof.
  intros t W. unfold write_to_json_file. destruct (lookup t (vial_path d e u)); [|split; [exact W|intros q _; reflexivity]].
  unfold vial_path. now apply (write_own d e [Uid u] (UidJson u)).
Qed.
Lemma logs_own d e u l : within (own d e) (write_logs (vial_path d e u) l).
Proof.
  apply within_fold. intros _ [s c]. apply within_bind; [|intros; apply within_ret]. apply within_attempt. cbn [fst snd].
  unfold vial_path. apply (write_own d e [Uid u] (Name s)).
Qed.
Lemma run_own load solve d e vs : within (own d e) (tree_run_vials load solve d e vs).
Proof.
  apply within_fold. intros s v. apply within_bind; [apply within_lift|intros _].
  apply (within_vial d e (v_uuid v)). apply within_bind; [apply logs_own|intros _].
  destruct (o_prize (solve v)) as [z|]; [|apply within_ret]. apply within_bind; [|intros; apply within_ret].
  apply within_attempt. apply (within_vial d e (v_uuid v) (fun dir => write_to_json_file dir (v_uuid v) z)). apply write_json_own.
Qed.

Lemma commands_own load solve d e vials v start size only :
  within (own d e) (setup_command d e vials) /\ within (own d e) (lab_command load solve d e vials) /\
  within (own d Onerun) (onerun_command load solve d v) /\ within (own d e) (tree_batch_command load solve d e start size only) /\
  within (own d e) (tree_missing_command d e) /\ within (own d e) (nmissing_command d e) /\ within (own d e) (infeasible_command d e).
Proof.
  assert (L : forall e', within (own d e') (lab_command load solve d e' vials)).
  { intros e'. apply within_bind; [apply within_lift|intros vs]. apply within_bind; [apply new_lab_own|intros _].
    apply within_bind; [apply write_experiment_own|intros _]. apply within_bind; [apply run_own|intros rs]. apply write_results_own. }
  split. { apply within_bind; [apply within_lift|intros vs]. apply within_bind; [apply new_lab_own|intros _]. apply write_experiment_own. }
  split. { apply L. }
  split.
  { apply within_bind; [apply within_lift|intros vs]. apply within_bind; [apply new_lab_own|intros _].
    apply within_bind; [apply write_experiment_own|intros _]. apply within_bind; [apply run_own|intros rs]. apply write_results_own. }
  split.
  { apply within_bind; [apply new_lab_own|intros _]. apply within_bind; [apply read_experiment_own|intros vs].
    apply within_bind; [apply run_own|intros rs]. apply within_ret. }
  split.
  { apply within_bind; [apply new_lab_own|intros _]. apply within_bind; [apply read_experiment_own|intros vs].
    apply within_bind; [apply missing_own|intros m]. apply write_experiment_own. }
  split.
  { apply within_bind; [apply new_lab_own|intros _]. apply within_bind; [apply read_experiment_own|intros vs].
    apply within_bind; [apply missing_own|intros m]. apply within_ret. }
  apply within_bind; [apply new_lab_own|intros _]. apply within_bind; [apply read_experiment_own|intros vs].
  apply within_bind; [apply infeasible_own|intros m]. apply within_ret.
Qed.

(** ** Commands that read *)

(** A command that keeps the files and adds directories only at [P]. *)
Definition reads {A} (P : path -> Prop) (m : cmd A) : Prop :=
  forall t, same_files t (fst (m t)) /\ new_directories P t (fst (m t)).

Lemma reads_same P (t : tree) : same_files t t /\ new_directories P t t.
Proof. split; [intros p c; tauto|]. split; auto. Qed.
Lemma reads_pure {A} P (f : tree -> res A) : reads P (fun t => (t, f t)).
Proof. intros t. apply reads_same. Qed.
Lemma reads_bind {A B} P (m : cmd A) (f : A -> cmd B) : reads P m -> (forall a, reads P (f a)) -> reads P (cbind m f).
Proof.
  intros H F t. unfold cbind. specialize (H t). destruct (m t) as [t' r]. cbn [fst] in H. destruct r as [a|x|u|]; try exact H.
  destruct H as [S [N1 N2]]. destruct (F a t') as [S' [N1' N2']]. split; [intros p c; rewrite (S' p c); apply S|].
  split; [auto|]. intros p D. destruct (N2' p D) as [D'|I]; auto.
Qed.
Lemma reads_attempt {A} P (m : cmd A) : reads P m -> reads P (attempt m).
Proof. intros H t. unfold attempt. specialize (H t). destruct (m t) as [t' r]. exact H. Qed.
Lemma reads_fold {A S} P (f : S -> A -> cmd S) l : (forall s a, In a l -> reads P (f s a)) -> forall s, reads P (foldC f l s).
Proof.
  induction l as [|a l IH]; intros F s; [apply reads_pure|]. cbn [foldC]. apply reads_bind; [apply F; now left|].
  intros s'. apply IH. intros s2 b I. apply F. now right.
Qed.
Lemma reads_mkdir (P : path -> Prop) p : P p -> reads P (mkdir p).
Proof.
  intros H t. unfold mkdir. destruct (lookup t p) as [[|x]|] eqn:L; try apply reads_same.
  destruct (lookup t (removelast p)) as [[|x]|]; try apply reads_same. cbn [fst]. split; [|split].
  - intros q c. rewrite lookup_put. destruct (path_eqb_spec p q) as [<-|]; [|tauto]. rewrite L. split; discriminate.
  - intros q D. rewrite lookup_put. destruct (path_eqb_spec p q); [reflexivity|exact D].
  - intros q D. rewrite lookup_put in D. destruct (path_eqb_spec p q) as [E|]; [right; now rewrite <- E|now left].
Qed.

Lemma reads_vial {A} d e vs v (f : path -> tree -> res A) : In v vs ->
  reads (lab_directory d e vs) (act dir <- get_vial_dir d e (v_uuid v); fun t => (t, f dir t)).
Proof.
  intros I. apply reads_bind; [|intros dir; apply reads_pure]. apply reads_bind.
  - apply reads_bind; [|intros; apply reads_pure]. apply reads_mkdir. right. left. reflexivity.
  - intros _. apply reads_bind; [|intros; apply reads_pure]. apply reads_mkdir. right. right. exists v. split; [exact I|reflexivity].
Qed.
Lemma reads_missing d e vs : reads (lab_directory d e vs) (tree_missing_vials d e vs).
Proof.
  apply reads_fold. intros s v I. apply reads_bind; [apply reads_attempt, reads_vial; exact I|].
  intros [z|[]|u|]; apply reads_pure.
Qed.
Lemma reads_infeasible d e vs : reads (lab_directory d e vs) (tree_infeasible_vials d e vs).
Proof.
  apply reads_fold. intros s v I. apply reads_bind; [apply reads_attempt, reads_vial; exact I|].
  intros [z|[]|u|]; apply reads_pure.
Qed.

(** ** Directories that are there *)

Lemma mkdir_there t p : lookup t p = Some Dir -> mkdir p t = (t, Ok tt).
Proof. intros L. unfold mkdir. now rewrite L. Qed.
Lemma get_experiment_there t d e : lookup t (exp_path d e) = Some Dir -> get_experiment_dir d e t = (t, Ok (exp_path d e)).
Proof. intros L. unfold get_experiment_dir, cbind. now rewrite mkdir_there. Qed.

(** Like [t], with a directory at [p]. *)
Definition with_dir (t : tree) (p : path) (t' : tree) : Prop := forall q, lookup t' q = if path_eqb p q then Some Dir else lookup t q.

Lemma mkdir_with t p c : (forall x, lookup t (p ++ [c]) <> Some (File x)) -> lookup t p = Some Dir ->
  exists t', mkdir (p ++ [c]) t = (t', Ok tt) /\ with_dir t (p ++ [c]) t'.
Proof.
  intros N D. unfold mkdir. rewrite removelast_snoc, D. destruct (lookup t (p ++ [c])) as [[|x]|] eqn:L.
  - exists t. split; [reflexivity|]. intros q. destruct (path_eqb_spec (p ++ [c]) q) as [<-|]; [exact L|reflexivity].
  - exfalso. now apply (N x).
  - eexists. split; [reflexivity|]. intros q. apply lookup_put.
Qed.
Lemma get_vial_with t d e u : lookup t (exp_path d e) = Some Dir -> (forall x, lookup t (vial_path d e u) <> Some (File x)) ->
  exists t', get_vial_dir d e u t = (t', Ok (vial_path d e u)) /\ with_dir t (vial_path d e u) t'.
Proof.
  intros D N. destruct (mkdir_with t (exp_path d e) (Uid u) N D) as (t' & E & W). exists t'. split; [|exact W].
  unfold get_vial_dir, cbind at 1. rewrite (get_experiment_there t d e D). unfold cbind, vial_path. rewrite E. reflexivity.
Qed.

(** The directory of the experiment is there and nothing is in the way of its vials. *)
Definition ready (t : tree) (d : dataset_name) (e : experiment_name) (vs : list vial) : Prop :=
  lookup t (exp_path d e) = Some Dir /\ vials_in_place t d e vs.

Lemma with_dir_ready t d e u vs t' : ready t d e vs -> with_dir t (vial_path d e u) t' -> ready t' d e vs.
Proof.
  intros [D V] W. split.
  - rewrite W. destruct (path_eqb_spec (vial_path d e u) (exp_path d e)) as [E|]; [reflexivity|exact D].
  - intros v I. destruct (V v I) as [A B]. split.
    + intros c. rewrite W. destruct (path_eqb _ _); [discriminate|apply A].
    + rewrite W. destruct (path_eqb_spec (vial_path d e u) [Name (dataset_value d); Name (experiment_value e); Uid (v_uuid v); UidJson (v_uuid v)]) as [E|]; [discriminate E|exact B].
Qed.
Lemma with_dir_store t d e u t' : with_dir t (vial_path d e u) t' -> forall u', store_of t' d e u' = store_of t d e u'.
Proof.
  intros W u'. unfold store_of. rewrite W. destruct (path_eqb_spec (vial_path d e u) [Name (dataset_value d); Name (experiment_value e); Uid u'; UidJson u']) as [E|]; [discriminate E|reflexivity].
Qed.

Lemma read_vial_ok t d e vs v : ready t d e vs -> In v vs ->
  exists t', (act dir <- get_vial_dir d e (v_uuid v); read_from_json_file dir (v_uuid v)) t = (t', read_result (store_of t d e) (v_uuid v)) /\
    with_dir t (vial_path d e (v_uuid v)) t'.
Proof.
  intros [D V] I. destruct (V v I) as [A B]. destruct (get_vial_with t d e (v_uuid v) D A) as (t' & E & W). exists t'. split; [|exact W].
  unfold cbind. rewrite E. unfold read_from_json_file. rewrite (W (vial_path d e (v_uuid v))), path_eqb_refl. f_equal.
  unfold read_result. rewrite <- (with_dir_store t d e _ t' W). unfold store_of.
  change (vial_path d e (v_uuid v) ++ [UidJson (v_uuid v)]) with [Name (dataset_value d); Name (experiment_value e); Uid (v_uuid v); UidJson (v_uuid v)].
  assert (B' : lookup t' [Name (dataset_value d); Name (experiment_value e); Uid (v_uuid v); UidJson (v_uuid v)] <> Some Dir).
  { rewrite W. destruct (path_eqb_spec (vial_path d e (v_uuid v)) [Name (dataset_value d); Name (experiment_value e); Uid (v_uuid v); UidJson (v_uuid v)]) as [X|]; [discriminate X|exact B]. }
  destruct (lookup t' _) as [[|[]]|]; try reflexivity. congruence.
Qed.

Lemma missing_tree d e vs : forall l acc t, ready t d e vs -> incl l vs ->
  exists t', foldC (fun missing v =>
      act r <- attempt (act dir <- get_vial_dir d e (v_uuid v); read_from_json_file dir (v_uuid v));
      match r with
      | Ok _ => ret missing
      | Throw FileNotFoundErrorPy | Throw JSONDecodeErrorPy => ret (missing ++ [v])
      | Throw x => lift (Throw x)
      | UB u => lift (UB u)
      | OutOfFuel => lift OutOfFuel
      end) l acc t = (t', foldM (fun missing v =>
      match read_result (store_of t d e) (v_uuid v) with
      | Ok _ => Ok missing
      | Throw FileNotFoundErrorPy | Throw JSONDecodeErrorPy => Ok (missing ++ [v])
      | Throw e => Throw e
      | UB u => UB u
      | OutOfFuel => OutOfFuel
      end) l acc).
Proof.
  induction l as [|v l IH]; intros acc t R I; [exists t; reflexivity|].
  destruct (read_vial_ok t d e vs v R (I v (or_introl eq_refl))) as (t1 & E & W).
  assert (R1 := with_dir_ready t d e _ vs t1 R W). assert (I' : incl l vs) by (intros x X; apply I; now right).
  assert (ST : forall u, read_result (store_of t1 d e) u = read_result (store_of t d e) u)
    by (intros u; unfold read_result; now rewrite (with_dir_store t d e _ t1 W)).
  cbn [foldC foldM]. unfold cbind at 1 2. unfold attempt at 1. rewrite E.
  assert (NEXT : forall acc', exists t', foldC (fun missing v =>
      act r <- attempt (act dir <- get_vial_dir d e (v_uuid v); read_from_json_file dir (v_uuid v));
      match r with
      | Ok _ => ret missing
      | Throw FileNotFoundErrorPy | Throw JSONDecodeErrorPy => ret (missing ++ [v])
      | Throw x => lift (Throw x)
      | UB u => lift (UB u)
      | OutOfFuel => lift OutOfFuel
      end) l acc' t1 = (t', foldM (fun missing v =>
      match read_result (store_of t d e) (v_uuid v) with
      | Ok _ => Ok missing
      | Throw FileNotFoundErrorPy | Throw JSONDecodeErrorPy => Ok (missing ++ [v])
      | Throw e => Throw e
      | UB u => UB u
      | OutOfFuel => OutOfFuel
      end) l acc')).
  { intros acc'. destruct (IH acc' t1 R1 I') as (t' & X). exists t'. rewrite X. f_equal.
    clear -ST. revert acc'. induction l as [|a l IHl]; intros acc'; [reflexivity|]. cbn [foldM]. rewrite ST.
    destruct (read_result (store_of t d e) (v_uuid a)) as [z|x|y|]; try reflexivity; [apply IHl|]. destruct x; try reflexivity; apply IHl. }
  destruct (read_result (store_of t d e) (v_uuid v)) as [z|x|y|].
  - apply NEXT.
  - destruct x; try (eexists; reflexivity); apply NEXT.
  - eexists; reflexivity.
  - eexists; reflexivity.
Qed.

Lemma infeasible_tree d e vs : forall l acc t, ready t d e vs -> incl l vs ->
  exists t', foldC (fun infeasible v =>
      act r <- attempt (act dir <- get_vial_dir d e (v_uuid v); read_from_json_file dir (v_uuid v));
      match r with
      | Ok prize => ret (if Z.ltb prize (v_quota v) then infeasible ++ [v] else infeasible)
      | Throw FileNotFoundErrorPy => ret infeasible
      | Throw x => lift (Throw x)
      | UB u => lift (UB u)
      | OutOfFuel => lift OutOfFuel
      end) l acc t = (t', foldM (fun infeasible v =>
      match read_result (store_of t d e) (v_uuid v) with
      | Ok prize => Ok (if Z.ltb prize (v_quota v) then infeasible ++ [v] else infeasible)
      | Throw FileNotFoundErrorPy => Ok infeasible
      | Throw e => Throw e
      | UB u => UB u
      | OutOfFuel => OutOfFuel
      end) l acc).
Proof.
  induction l as [|v l IH]; intros acc t R I; [exists t; reflexivity|].
  destruct (read_vial_ok t d e vs v R (I v (or_introl eq_refl))) as (t1 & E & W).
  assert (R1 := with_dir_ready t d e _ vs t1 R W). assert (I' : incl l vs) by (intros x X; apply I; now right).
  assert (ST : forall u, read_result (store_of t1 d e) u = read_result (store_of t d e) u)
    by (intros u; unfold read_result; now rewrite (with_dir_store t d e _ t1 W)).
  cbn [foldC foldM]. unfold cbind at 1 2. unfold attempt at 1. rewrite E.
  assert (NEXT : forall acc', exists t', foldC (fun infeasible v =>
      act r <- attempt (act dir <- get_vial_dir d e (v_uuid v); read_from_json_file dir (v_uuid v));
      match r with
      | Ok prize => ret (if Z.ltb prize (v_quota v) then infeasible ++ [v] else infeasible)
      | Throw FileNotFoundErrorPy => ret infeasible
      | Throw x => lift (Throw x)
      | UB u => lift (UB u)
      | OutOfFuel => lift OutOfFuel
      end) l acc' t1 = (t', foldM (fun infeasible v =>
      match read_result (store_of t d e) (v_uuid v) with
      | Ok prize => Ok (if Z.ltb prize (v_quota v) then infeasible ++ [v] else infeasible)
      | Throw FileNotFoundErrorPy => Ok infeasible
      | Throw e => Throw e
      | UB u => UB u
      | OutOfFuel => OutOfFuel
      end) l acc')).
  { intros acc'. destruct (IH acc' t1 R1 I') as (t' & X). exists t'. rewrite X. f_equal.
    clear -ST. revert acc'. induction l as [|a l IHl]; intros acc'; [reflexivity|]. cbn [foldM]. rewrite ST.
    destruct (read_result (store_of t d e) (v_uuid a)) as [z|x|y|]; try reflexivity; [apply IHl|]. destruct x; try reflexivity; apply IHl. }
  destruct (read_result (store_of t d e) (v_uuid v)) as [z|x|y|].
  - apply NEXT.
  - destruct x; try (eexists; reflexivity); apply NEXT.
  - eexists; reflexivity.
  - eexists; reflexivity.
Qed.

Lemma missing_refines t d e vs : ready t d e vs ->
  exists t', tree_missing_vials d e vs t = (t', missing_vials (store_of t d e) vs).
Proof. intros R. apply (missing_tree d e vs vs [] t R). intros x X; exact X. Qed.
Lemma infeasible_refines t d e vs : ready t d e vs ->
  exists t', tree_infeasible_vials d e vs t = (t', infeasible_vials (store_of t d e) vs).
Proof. intros R. apply (infeasible_tree d e vs vs [] t R). intros x X; exact X. Qed.

Lemma reading_start t d e vs b : has_experiment t d e (experiment_filename b) vs ->
  new_lab d t = (t, Ok tt) /\ read_experiment_from_file d e b t = (t, Ok vs).
Proof.
  intros (_ & D & X & F). split; [now apply mkdir_there|]. unfold read_experiment_from_file, cbind.
  rewrite (get_experiment_there t d e X). unfold exp_file, exp_path, data_path. cbn [app]. rewrite F. reflexivity.
Qed.
Lemma has_ready t d e f vs vs' : has_experiment t d e f vs -> vials_in_place t d e vs' -> ready t d e vs'.
Proof. intros (_ & _ & X & _) V. split; assumption. Qed.

Lemma bind_to {A B} (m : cmd A) (f : A -> cmd B) t t' a : m t = (t', Ok a) -> cbind m f t = f a t'.
Proof. intros E. unfold cbind. now rewrite E. Qed.

Lemma nmissing_ok t d e vs : has_experiment t d e "experiment.json" vs -> vials_in_place t d e vs ->
  (forall v, In v vs -> store_of t d e (v_uuid v) <> BadFields) ->
  exists t' m, nmissing_command d e t = (t', Ok (List.length m, List.length vs)) /\
    selected (without_result (store_of t d e)) vs m /\ same_files t t' /\ new_directories (lab_directory d e vs) t t'.
Proof.
  intros H V B. destruct (reading_start t d e vs false H) as [N R]. destruct (missing_refines t d e vs (has_ready _ _ _ _ _ _ H V)) as [t' E].
  destruct (missing_ok (store_of t d e) vs B) as (m & M & S). exists t', m. rewrite M in E. split; [|split; [exact S|]].
  - unfold nmissing_command. rewrite (bind_to _ _ _ _ _ N), (bind_to _ _ _ _ _ R), (bind_to _ _ _ _ _ E). reflexivity.
  - pose proof (reads_missing d e vs t) as X. rewrite E in X. exact X.
Qed.
Lemma infeasible_cmd_ok t d e vs : has_experiment t d e "experiment.json" vs -> vials_in_place t d e vs ->
  (forall v, In v vs -> store_of t d e (v_uuid v) <> BadFields /\ store_of t d e (v_uuid v) <> NotJson) ->
  exists t' m, infeasible_command d e t = (t', Ok (map v_uuid m)) /\
    selected (result_below_quota (store_of t d e)) vs m /\ same_files t t' /\ new_directories (lab_directory d e vs) t t'.
Proof.
  intros H V B. destruct (reading_start t d e vs false H) as [N R]. destruct (infeasible_refines t d e vs (has_ready _ _ _ _ _ _ H V)) as [t' E].
  destruct (infeasible_ok (store_of t d e) vs B) as (m & M & S). exists t', m. rewrite M in E. split; [|split; [exact S|]].
  - unfold infeasible_command. rewrite (bind_to _ _ _ _ _ N), (bind_to _ _ _ _ _ R), (bind_to _ _ _ _ _ E). reflexivity.
  - pose proof (reads_infeasible d e vs t) as X. rewrite E in X. exact X.
Qed.

Lemma write_file_ok t p c x : lookup t p = Some Dir -> lookup t (p ++ [c]) <> Some Dir ->
  write_file (p ++ [c]) x t = (put t (p ++ [c]) (File x), Ok tt).
Proof.
  intros D N. unfold write_file. rewrite removelast_snoc, D. destruct (lookup t (p ++ [c])) as [[|y]|]; [congruence|reflexivity|reflexivity].
Qed.
Lemma write_experiment_ok t d e vs b : lookup t (exp_path d e) = Some Dir ->
  lookup t (exp_file d e (experiment_filename b)) <> Some Dir ->
  write_experiment_to_file d e vs b t = (put t (exp_file d e (experiment_filename b)) (File (Vials vs)), Ok tt).
Proof.
  intros X N. unfold write_experiment_to_file. rewrite (bind_to _ _ _ _ _ (get_experiment_there t d e X)). now apply write_file_ok.
Qed.

Lemma missing_cmd_ok t d e vs : has_experiment t d e "experiment.json" vs -> vials_in_place t d e vs ->
  lookup t [Name (dataset_value d); Name (experiment_value e); Name "missing_experiment.json"] <> Some Dir ->
  (forall v, In v vs -> store_of t d e (v_uuid v) <> BadFields) ->
  exists t' m, tree_missing_command d e t = (t', Ok tt) /\
    selected (without_result (store_of t d e)) vs m /\ has_experiment t' d e "missing_experiment.json" m /\
    has_experiment t' d e "experiment.json" vs /\
    (forall p c, p <> [Name (dataset_value d); Name (experiment_value e); Name "missing_experiment.json"] ->
       (lookup t' p = Some (File c) <-> lookup t p = Some (File c))) /\
    new_directories (lab_directory d e vs) t t'.
Proof.
  intros H V M0 B. destruct (reading_start t d e vs false H) as [N R]. destruct (missing_refines t d e vs (has_ready _ _ _ _ _ _ H V)) as [t1 E].
  destruct (missing_ok (store_of t d e) vs B) as (m & M & S). rewrite M in E.
  pose proof (reads_missing d e vs t) as X. rewrite E in X. cbn [fst] in X. destruct X as [SF [N1 N2]].
  destruct H as (H0 & H1 & H2 & H3).
  set (f := [Name (dataset_value d); Name (experiment_value e); Name "missing_experiment.json"]) in *.
  assert (NF : lookup t1 f <> Some Dir).
  { intros D. destruct (N2 f D) as [D'|[D'|[D'|(v & _ & D')]]]; [contradiction|discriminate D'..]. }
  exists (put t1 f (File (Vials m))), m. split; [|split; [exact S|split; [|split; [|split]]]].
  - unfold tree_missing_command. rewrite (bind_to _ _ _ _ _ N), (bind_to _ _ _ _ _ R), (bind_to _ _ _ _ _ E).
    apply write_experiment_ok; [now apply N1|exact NF].
  - unfold has_experiment. fold f. rewrite lookup_put_same. rewrite !lookup_put_other by (subst f; discriminate). auto.
  - unfold has_experiment. rewrite !lookup_put_other by (subst f; discriminate). repeat split; auto. now apply SF.
  - intros p c P. rewrite lookup_put_other by congruence. apply SF.
  - split.
    + intros p D. rewrite lookup_put. destruct (path_eqb_spec f p) as [->|]; [contradiction|auto].
    + intros p D. rewrite lookup_put in D. destruct (path_eqb_spec f p); [discriminate D|auto].
Qed.

(** ** Running vials *)

Lemma within_fold_in {A S} P (f : S -> A -> cmd S) l : (forall s a, In a l -> within P (f s a)) -> forall s, within P (foldC f l s).
Proof.
  induction l as [|a l IH]; intros F s; [apply within_ret|]. cbn [foldC]. apply within_bind; [apply F; now left|].
  intros s'. apply IH. intros s2 b I. apply F. now right.
Qed.

(** The directory of the experiment and what is at or below those of the vials. *)
Definition of_vials (d : dataset_name) (e : experiment_name) (vs : list vial) (p : path) : Prop :=
  p = exp_path d e \/ exists v, In v vs /\ at_or_below (vial_path d e (v_uuid v)) p.

Lemma of_vials_below d e vs v r : In v vs -> of_vials d e vs (vial_path d e (v_uuid v) ++ r).
Proof. intros I. right. exists v. split; [exact I|]. exists r. reflexivity. Qed.
Lemma within_vial_in {B} d e vs v (f : path -> cmd B) : In v vs -> within (of_vials d e vs) (f (vial_path d e (v_uuid v))) ->
  within (of_vials d e vs) (act dir <- get_vial_dir d e (v_uuid v); f dir).
Proof.
  intros I F t W.
  assert (G : within (of_vials d e vs) (get_vial_dir d e (v_uuid v))).
  { apply within_bind; [apply within_bind; [|intros; apply within_ret]|intros _; apply within_bind; [|intros; apply within_ret]].
    - apply (within_mkdir (of_vials d e vs) (data_path d)). now left.
    - apply (within_mkdir (of_vials d e vs) (exp_path d e)). change (of_vials d e vs (vial_path d e (v_uuid v))).
      rewrite <- (app_nil_r (vial_path d e (v_uuid v))). now apply of_vials_below. }
  specialize (G t W). unfold cbind. destruct (get_vial_dir d e (v_uuid v) t) as [t' r] eqn:E.
  cbn [fst] in G. destruct G as [W' C]. destruct r as [p|x|y|]; try (split; [exact W'|exact C]).
  apply get_vial_value in E. subst p. destruct (F t' W') as [W2 C2]. split; [exact W2|]. intros q N. rewrite (C2 q N). now apply C.
Qed.
Lemma run_within load solve d e vs : within (of_vials d e vs) (tree_run_vials load solve d e vs).
Proof.
  apply within_fold_in. intros s v I. apply within_bind; [apply within_lift|intros _].
  apply within_vial_in; [exact I|]. apply within_bind; [|intros _].
  - apply within_fold. intros _ [n c]. apply within_bind; [|intros; apply within_ret]. apply within_attempt. cbn [fst snd].
    apply within_write. now apply of_vials_below.
  - destruct (o_prize (solve v)) as [z|]; [|apply within_ret]. apply within_bind; [|intros; apply within_ret].
    apply within_attempt. apply (within_vial_in d e vs v (fun dir => write_to_json_file dir (v_uuid v) z)); [exact I|].
    intros t W. unfold write_to_json_file. destruct (lookup t _); [|split; [exact W|intros q _; reflexivity]].
    apply within_write; [|exact W]. now apply of_vials_below.
Qed.

(** What the runs keep. *)
Definition keeps t d e vs u (st : store) : Prop :=
  ready t d e vs /\ lookup t (vial_path d e u) = Some Dir /\ forall u', store_of t d e u' = st u'.

Lemma write_log_keeps t d e vs u st s c : keeps t d e vs u st -> keeps (fst (write_file (vial_path d e u ++ [Name s]) c t)) d e vs u st.
Proof.
  intros [[D V] [U S]].
  assert (O : forall q, q <> vial_path d e u ++ [Name s] -> lookup (fst (write_file (vial_path d e u ++ [Name s]) c t)) q = lookup t q).
  { intros q N. unfold write_file. destruct (lookup t (vial_path d e u ++ [Name s])) as [[|y]|]; [reflexivity| |].
    - cbn [fst]. apply lookup_put_other. congruence.
    - destruct (lookup t (removelast _)) as [[|y]|]; try reflexivity. cbn [fst]. apply lookup_put_other. congruence. }
  set (t' := fst _) in *. clearbody t'. unfold keeps, ready, vials_in_place, store_of. rewrite !O by discriminate. split; [split; [exact D|]|].
  - intros v I. rewrite !O by discriminate. now apply V.
  - split; [exact U|]. intros u'. rewrite O by discriminate. apply S.
Qed.
Lemma logs_keep d e vs u st logs : forall t, keeps t d e vs u st -> exists t', write_logs (vial_path d e u) logs t = (t', Ok tt) /\ keeps t' d e vs u st.
Proof.
  unfold write_logs. induction logs as [|[s c] logs IH]; intros t K; [exists t; split; [reflexivity|exact K]|]. cbn [foldC fst snd].
  pose proof (write_log_keeps t d e vs u st s c K) as K'. unfold cbind at 1 2. unfold attempt at 1.
  destruct (write_file (vial_path d e u ++ [Name s]) c t) as [t1 r]. cbn [ret]. apply IH. exact K'.
Qed.
Lemma with_dir_keeps t d e vs u st t' : ready t d e vs -> (forall u', store_of t d e u' = st u') -> with_dir t (vial_path d e u) t' ->
  keeps t' d e vs u st.
Proof.
  intros R S W. split; [eapply with_dir_ready; eassumption|]. split.
  - rewrite W, path_eqb_refl. reflexivity.
  - intros u'. rewrite (with_dir_store t d e u t' W). apply S.
Qed.

Lemma run_step load solve d e vs v results t st : ready t d e vs -> (forall u, store_of t d e u = st u) -> In v vs -> load v = Ok tt ->
  exists t', (act _ <- lift (load v);
    act dir <- get_vial_dir d e (v_uuid v);
    act _ <- write_logs dir (o_logs (solve v));
    match o_prize (solve v) with
    | None => ret results
    | Some z =>
        act _ <- attempt (act dir <- get_vial_dir d e (v_uuid v); write_to_json_file dir (v_uuid v) z);
        ret (results ++ [(v_uuid v, z)])
    end) t = (t', Ok (match o_prize (solve v) with Some z => results ++ [(v_uuid v, z)] | None => results end)) /\
    ready t' d e vs /\
    forall u, store_of t' d e u = (match o_prize (solve v) with Some z => write_result st (v_uuid v) z | None => st end) u.
Proof.
  intros R S I L. destruct R as [D V]. destruct (V v I) as [A B].
  destruct (get_vial_with t d e (v_uuid v) D A) as (t1 & E1 & W1).
  pose proof (with_dir_keeps t d e vs _ st t1 (conj D V) S W1) as K1.
  destruct (logs_keep d e vs (v_uuid v) st (o_logs (solve v)) t1 K1) as (t2 & E2 & K2).
  rewrite (bind_to (lift (load v)) _ t t tt) by (unfold lift; now rewrite L).
  rewrite (bind_to _ _ _ _ _ E1), (bind_to _ _ _ _ _ E2).
  destruct (o_prize (solve v)) as [z|]; [|exists t2; split; [reflexivity|]; destruct K2 as (R2 & _ & S2); auto].
  destruct K2 as ([D2 V2] & U2 & S2). destruct (V2 v I) as [A2 B2].
  assert (G : get_vial_dir d e (v_uuid v) t2 = (t2, Ok (vial_path d e (v_uuid v)))).
  { unfold get_vial_dir. rewrite (bind_to _ _ _ _ _ (get_experiment_there t2 d e D2)).
    rewrite (bind_to _ _ _ _ _ (mkdir_there t2 _ U2)). reflexivity. }
  unfold cbind, attempt. rewrite G. unfold write_to_json_file. rewrite U2.
  rewrite (write_file_ok t2 (vial_path d e (v_uuid v)) (UidJson (v_uuid v)) (Prize z) U2 B2).
  exists (put t2 (vial_path d e (v_uuid v) ++ [UidJson (v_uuid v)]) (File (Prize z))). split; [reflexivity|]. split.
  - unfold ready, vials_in_place. rewrite !lookup_put_other by discriminate. split; [exact D2|].
    intros v' I'. rewrite !lookup_put_other by discriminate. split; [apply (V2 v' I')|]. rewrite lookup_put.
    destruct (path_eqb _ _); [discriminate|apply (V2 v' I')].
  - intros u. unfold write_result, store_of. rewrite lookup_put.
    destruct (path_eqb_spec (vial_path d e (v_uuid v) ++ [UidJson (v_uuid v)])
      [Name (dataset_value d); Name (experiment_value e); Uid u; UidJson u]) as [X|X].
    + injection X as X. subst u. rewrite Nat.eqb_refl. reflexivity.
    + destruct (Nat.eqb_spec u (v_uuid v)) as [->|]; [exfalso; now apply X|]. apply S2.
Qed.

Lemma run_tree load solve d e vs : forall l acc t st, ready t d e vs -> (forall u, store_of t d e u = st u) -> incl l vs ->
  (forall v, In v l -> load v = Ok tt) ->
  exists t' results st',
    foldM (fun '(results, st) v =>
      do _ <- load v;
      match o_prize (solve v) with
      | Some prize => Ok (results ++ [(v_uuid v, prize)], write_result st (v_uuid v) prize)
      | None => Ok (results, st)
      end) l (acc, st) = Ok (results, st') /\
    foldC (fun results v =>
      act _ <- lift (load v);
      act dir <- get_vial_dir d e (v_uuid v);
      act _ <- write_logs dir (o_logs (solve v));
      match o_prize (solve v) with
      | None => ret results
      | Some z =>
          act _ <- attempt (act dir <- get_vial_dir d e (v_uuid v); write_to_json_file dir (v_uuid v) z);
          ret (results ++ [(v_uuid v, z)])
      end) l acc t = (t', Ok results) /\ ready t' d e vs /\ forall u, store_of t' d e u = st' u.
Proof.
  induction l as [|v l IH]; intros acc t st R S I L; [exists t, acc, st; split; [reflexivity|split; [reflexivity|auto]]|].
  destruct (run_step load solve d e vs v acc t st R S (I v (or_introl eq_refl)) (L v (or_introl eq_refl))) as (t1 & E1 & R1 & S1).
  cbn [foldC foldM]. rewrite (bind_to _ _ _ _ _ E1). rewrite (L v (or_introl eq_refl)). cbn [bind].
  destruct (IH (match o_prize (solve v) with Some z => acc ++ [(v_uuid v, z)] | None => acc end) t1
     (match o_prize (solve v) with Some z => write_result st (v_uuid v) z | None => st end) R1 S1
     (fun x X => I x (or_intror X)) (fun x X => L x (or_intror X))) as (t' & rs & st' & F & C & R' & S').
  exists t', rs, st'. split; [|split; [exact C|auto]]. destruct (o_prize (solve v)); exact F.
Qed.

Lemma run_refines load solve d e vs t : ready t d e vs -> (forall v, In v vs -> load v = Ok tt) ->
  exists t' results st', run_experiment_from_vial_list load (fun v => o_prize (solve v)) vs (store_of t d e) = Ok (results, st') /\
    tree_run_vials load solve d e vs t = (t', Ok results) /\ ready t' d e vs /\ forall u, store_of t' d e u = st' u.
Proof.
  intros R L. apply (run_tree load solve d e vs vs [] t (store_of t d e) R); auto. intros x X; exact X.
Qed.

(** ** The commands that run *)

Lemma run_results load prize vs : (forall v, In v vs -> load v = Ok tt) -> forall st r st',
  run_experiment_from_vial_list load prize vs st = Ok (r, st') -> r = prizes_of prize vs.
Proof.
  intros L. unfold run_experiment_from_vial_list. 
  enough (X : forall acc st r st', foldM (fun '(results, st) v =>
    do _ <- load v;
    match prize v with
    | Some p => Ok (results ++ [(v_uuid v, p)], write_result st (v_uuid v) p)
    | None => Ok (results, st)
    end) vs (acc, st) = Ok (r, st') -> r = acc ++ prizes_of prize vs) by (intros st r st' E; exact (X [] st r st' E)).
  induction vs as [|v l IH]; intros acc st r st' E.
  - injection E as <- <-. symmetry. apply app_nil_r.
  - cbn [foldM] in E. rewrite (L v (or_introl eq_refl)) in E. cbn [bind] in E. unfold prizes_of. cbn [flat_map]. fold (prizes_of prize l).
    specialize (IH (fun x X => L x (or_intror X))). destruct (prize v) as [z|]; cbn [bind] in E; apply IH in E; [|exact E].
    rewrite E, <- app_assoc. reflexivity.
Qed.

Lemma run_vials_ok load solve d e vs t : ready t d e vs -> (forall v, In v vs -> load v = Ok tt) -> NoDup (map v_uuid vs) ->
  exists t', tree_run_vials load solve d e vs t = (t', Ok (prizes_of (fun v => o_prize (solve v)) vs)) /\ ready t' d e vs /\
    results_added (fun v => o_prize (solve v)) vs d e t t'.
Proof.
  intros R L N. destruct (run_refines load solve d e vs t R L) as (t' & rs & st' & E & T & R' & S').
  exists t'. rewrite (run_results load _ vs L _ _ _ E) in T. split; [exact T|split; [exact R'|]].
  destruct (run_list_ok load (fun v => o_prize (solve v)) vs L N (store_of t d e)) as (rs2 & st2 & E2 & _ & _ & S1 & S2).
  rewrite E in E2. injection E2 as <- <-. split.
  - intros v I. rewrite S'. now apply S1.
  - intros u U. rewrite S'. now apply S2.
Qed.

Lemma foldC_app {A S} (f : S -> A -> cmd S) a b : forall s t, foldC f (a ++ b) s t = cbind (foldC f a s) (foldC f b) t.
Proof.
  induction a as [|x a IH]; intros s t; [reflexivity|]. cbn [app foldC]. unfold cbind. destruct (f s x t) as [t' [s'|y|y|]]; try reflexivity.
  rewrite IH. unfold cbind. reflexivity.
Qed.

Lemma run_vials_stops load solve d e vs1 v vs2 t x : ready t d e vs1 -> (forall v, In v vs1 -> load v = Ok tt) -> NoDup (map v_uuid vs1) ->
  load v = Throw x ->
  exists t', tree_run_vials load solve d e (vs1 ++ v :: vs2) t = (t', Throw x) /\ ready t' d e vs1 /\
    results_added (fun v => o_prize (solve v)) vs1 d e t t' /\
    (well_formed t -> changes_only (of_vials d e vs1) t t').
Proof.
  intros R L N X. destruct (run_vials_ok load solve d e vs1 t R L N) as (t' & E & R' & A). exists t'. split; [|split; [exact R'|split; [exact A|]]].
  - unfold tree_run_vials in *. rewrite foldC_app. rewrite (bind_to _ _ _ _ _ E). cbn [foldC]. unfold cbind, lift. rewrite X. reflexivity.
  - intros W. destruct (run_within load solve d e vs1 t W) as [_ C]. rewrite E in C. exact C.
Qed.

Lemma not_of_vials d e vs p : match p with [_; _; Name _] => True | [_] => True | [] => True | _ => False end -> ~ of_vials d e vs p.
Proof.
  intros S [E|(v & _ & r & E)]; subst p; cbn in S; exact S.
Qed.

(** Lab_dir is there and nothing is in the way. *)
Lemma start_ok t d e vs : lookup t [] = Some Dir -> lab_in_place t d e vs -> well_formed t ->
  exists t1 t2, new_lab d t = (t1, Ok tt) /\ write_experiment_to_file d e vs false t1 = (t2, Ok tt) /\
    has_experiment t2 d e "experiment.json" vs /\ ready t2 d e vs /\
    (forall u, store_of t2 d e u = store_of t d e u) /\ well_formed t2 /\
    changes_only (fun p => p = data_path d \/ p = exp_path d e \/ p = exp_file d e "experiment.json") t t2.
Proof.
  intros R (P1 & P2 & P3 & P4 & P5) W.
  destruct (mkdir_with t [] (Name (dataset_value d)) P1 R) as (t1 & E1 & W1). cbn [app] in *. fold (data_path d) in *.
  assert (D1 : lookup t1 (data_path d) = Some Dir) by (rewrite W1, path_eqb_refl; reflexivity).
  assert (O1 : forall q, q <> data_path d -> lookup t1 q = lookup t q).
  { intros q N. rewrite W1. destruct (path_eqb_spec (data_path d) q); [congruence|reflexivity]. }
  destruct (mkdir_with t1 (data_path d) (Name (experiment_value e))) as (t1' & E2 & W2).
  { intros x. rewrite O1 by discriminate. apply P2. }
  { exact D1. }
  fold (exp_path d e) in *.
  assert (D2 : lookup t1' (exp_path d e) = Some Dir) by (rewrite W2, path_eqb_refl; reflexivity).
  assert (O2 : forall q, q <> exp_path d e -> lookup t1' q = lookup t1 q).
  { intros q N. rewrite W2. destruct (path_eqb_spec (exp_path d e) q); [congruence|reflexivity]. }
  assert (WR : write_experiment_to_file d e vs false t1 = (put t1' (exp_file d e "experiment.json") (File (Vials vs)), Ok tt)).
  { unfold write_experiment_to_file. rewrite (bind_to (get_experiment_dir d e) _ t1 t1' (exp_path d e)).
    - apply write_file_ok; [exact D2|]. rewrite O2, O1 by discriminate. exact P3.
    - unfold get_experiment_dir. rewrite (bind_to _ _ _ _ _ E2). reflexivity. }
  assert (OO : forall q, q <> data_path d -> q <> exp_path d e -> q <> exp_file d e "experiment.json" ->
    lookup (put t1' (exp_file d e "experiment.json") (File (Vials vs))) q = lookup t q).
  { intros q A B C. rewrite lookup_put_other by congruence. rewrite O2, O1 by assumption. reflexivity. }
  exists t1, (put t1' (exp_file d e "experiment.json") (File (Vials vs))).
  split; [exact E1|]. split; [exact WR|]. split; [|split; [|split; [|split]]].
  - unfold has_experiment. change [Name (dataset_value d); Name (experiment_value e); Name "experiment.json"] with (exp_file d e "experiment.json").
    rewrite lookup_put_same. rewrite OO by discriminate. split; [exact R|]. rewrite !lookup_put_other by discriminate.
    split; [|split; [exact D2|reflexivity]]. change (lookup t1' (data_path d) = Some Dir). rewrite O2 by discriminate. exact D1.
  - split; [rewrite lookup_put_other by discriminate; exact D2|]. intros v I. rewrite !OO by discriminate. now apply P5.
  - intros u. unfold store_of. rewrite OO by discriminate. reflexivity.
  - destruct (new_lab_own d e t W) as [Wa _]. unfold new_lab in Wa. rewrite E1 in Wa.
    destruct (write_experiment_own d e vs false t1 Wa) as [Wb _]. rewrite WR in Wb. exact Wb.
  - intros q N. apply OO; intros ->; apply N; auto.
Qed.

Lemma setup_ok t d e vs : lookup t [] = Some Dir -> lab_in_place t d e vs -> well_formed t ->
  exists t', setup_command d e (Ok vs) t = (t', Ok tt) /\ has_experiment t' d e "experiment.json" vs /\
    (forall u, store_of t' d e u = store_of t d e u) /\
    forall p, p <> data_path d -> p <> exp_path d e -> p <> exp_file d e "experiment.json" -> lookup t' p = lookup t p.
Proof.
  intros R P W. destruct (start_ok t d e vs R P W) as (t1 & t2 & E1 & E2 & H & _ & S & _ & C). exists t2. split; [|split; [exact H|split; [exact S|]]].
  - unfold setup_command. unfold cbind at 1, lift. rewrite (bind_to _ _ _ _ _ E1). exact E2.
  - intros p A B D. apply C. intros [X|[X|X]]; contradiction.
Qed.

Lemma lab_ok load solve t d e vs : lookup t [] = Some Dir -> lab_in_place t d e vs -> well_formed t ->
  (forall v, In v vs -> load v = Ok tt) -> NoDup (map v_uuid vs) ->
  exists t', lab_command load solve d e (Ok vs) t = (t', Ok tt) /\ has_experiment t' d e "experiment.json" vs /\
    lookup t' [Name (dataset_value d); Name (experiment_value e); Name "results.json"] =
      Some (File (Prizes (prizes_of (fun v => o_prize (solve v)) vs))) /\
    results_added (fun v => o_prize (solve v)) vs d e t t' /\ vials_in_place t' d e vs.
Proof.
  intros R P W L N. destruct (start_ok t d e vs R P W) as (t1 & t2 & E1 & E2 & H & RD & S & W2 & C).
  destruct (run_vials_ok load solve d e vs t2 RD L N) as (t3 & E3 & [D3 V3] & [A1 A2]).
  destruct (run_within load solve d e vs t2 W2) as [_ F]. rewrite E3 in F. cbn [fst] in F.
  assert (NR : lookup t3 (exp_file d e "results.json") <> Some Dir).
  { rewrite F by (apply not_of_vials; exact I). rewrite C by (intros [X|[X|X]]; discriminate X). apply P. }
  exists (put t3 (exp_file d e "results.json") (File (Prizes (prizes_of (fun v => o_prize (solve v)) vs)))).
  split; [|split; [|split; [|split]]].
  - unfold lab_command. unfold cbind at 1, lift. rewrite (bind_to _ _ _ _ _ E1), (bind_to _ _ _ _ _ E2), (bind_to _ _ _ _ _ E3).
    unfold write_results_to_file. rewrite (bind_to _ _ _ _ _ (get_experiment_there t3 d e D3)). now apply write_file_ok.
  - destruct H as (H0 & H1 & H2 & H3). unfold has_experiment. rewrite !lookup_put_other by discriminate.
    split; [rewrite F by (apply not_of_vials; exact I); exact H0|]. split; [rewrite F by (apply not_of_vials; exact I); exact H1|].
    split; [exact D3|]. rewrite F by (apply not_of_vials; exact I). exact H3.
  - apply lookup_put_same.
  - split.
    + intros v I. rewrite <- S, <- (A1 v I). unfold store_of. rewrite lookup_put_other by discriminate. reflexivity.
    + intros u U. rewrite <- S, <- (A2 u U). unfold store_of. rewrite lookup_put_other by discriminate. reflexivity.
  - intros v I. rewrite !lookup_put_other by discriminate. now apply V3.
Qed.

Lemma lab_stops load solve t d e vs1 v vs2 x : lookup t [] = Some Dir -> lab_in_place t d e (vs1 ++ v :: vs2) -> well_formed t ->
  (forall v, In v vs1 -> load v = Ok tt) -> NoDup (map v_uuid vs1) -> load v = Throw x ->
  exists t', lab_command load solve d e (Ok (vs1 ++ v :: vs2)) t = (t', Throw x) /\
    has_experiment t' d e "experiment.json" (vs1 ++ v :: vs2) /\
    lookup t' [Name (dataset_value d); Name (experiment_value e); Name "results.json"] =
      lookup t [Name (dataset_value d); Name (experiment_value e); Name "results.json"] /\
    results_added (fun v => o_prize (solve v)) vs1 d e t t'.
Proof.
  intros R P W L N X. destruct (start_ok t d e _ R P W) as (t1 & t2 & E1 & E2 & H & [RD RV] & S & W2 & C).
  assert (RD1 : ready t2 d e vs1) by (split; [exact RD|intros u I; apply RV, in_or_app; now left]).
  destruct (run_vials_stops load solve d e vs1 v vs2 t2 x RD1 L N X) as (t3 & E3 & [D3 V3] & [A1 A2] & F). specialize (F W2).
  exists t3. split; [|split; [|split]].
  - unfold lab_command. unfold cbind at 1, lift. rewrite (bind_to _ _ _ _ _ E1), (bind_to _ _ _ _ _ E2). unfold cbind. rewrite E3. reflexivity.
  - destruct H as (H0 & H1 & H2 & H3). unfold has_experiment.
    split; [rewrite F by (apply not_of_vials; exact I); exact H0|]. split; [rewrite F by (apply not_of_vials; exact I); exact H1|].
    split; [exact D3|]. rewrite F by (apply not_of_vials; exact I). exact H3.
  - rewrite F by (apply not_of_vials; exact I). apply C. intros [Y|[Y|Y]]; discriminate Y.
  - split.
    + intros u I. rewrite <- S. now apply A1.
    + intros u U. rewrite <- S. now apply A2.
Qed.

Lemma py_slice_seg {A} (l : list A) (k n : nat) :
  py_slice l (Z.of_nat k) (Z.min (Z.of_nat k + Z.of_nat n) (Z.of_nat (List.length l))) = firstn n (skipn k l).
Proof.
  unfold py_slice. set (m := List.length l). destruct (Z.ltb_spec (Z.of_nat k) 0); [lia|].
  destruct (Z.ltb_spec (Z.min (Z.of_nat k + Z.of_nat n) (Z.of_nat m)) 0); [lia|].
  replace (Z.to_nat (Z.min (Z.of_nat k) (Z.of_nat m))) with (Nat.min k m) by lia.
  replace (Z.to_nat (Z.min (Z.min (Z.of_nat k + Z.of_nat n) (Z.of_nat m)) (Z.of_nat m))) with (Nat.min (k + n) m) by lia.
  destruct (Nat.le_gt_cases k m) as [K|K].
  - rewrite (Nat.min_l k m K). destruct (Nat.le_gt_cases (k + n) m) as [J|J].
    + rewrite Nat.min_l by lia. f_equal. lia.
    + rewrite Nat.min_r by lia. rewrite !firstn_all2; [reflexivity| |]; rewrite skipn_length; subst m; lia.
  - rewrite (skipn_all2 l (n := k)) by (subst m; lia). rewrite firstn_nil. rewrite skipn_all2 by (subst m; lia). now rewrite firstn_nil.
Qed.
Lemma seg_incl {A} (l : list A) k n : incl (firstn n (skipn k l)) l.
Proof.
  intros x I. rewrite <- (firstn_skipn k l). apply in_or_app. right. rewrite <- (firstn_skipn n (skipn k l)). apply in_or_app. now left.
Qed.
Lemma seg_NoDup {A B} (f : A -> B) l k n : NoDup (map f l) -> NoDup (map f (firstn n (skipn k l))).
Proof.
  intros N. rewrite <- (firstn_skipn k l), map_app in N.
  assert (X : NoDup (map f (skipn k l))).
  { clear -N. revert N. generalize (map f (firstn k l)). intros a. induction a as [|y a IH]; intros N; [exact N|]. inversion N; subst. now apply IH. }
  rewrite <- (firstn_skipn n (skipn k l)), map_app in X. revert X. generalize (map f (skipn n (skipn k l))). generalize (map f (firstn n (skipn k l))).
  intros a b X. induction a as [|y a IH]; [constructor|]. inversion X as [|? ? NI X']; subst. constructor; [|now apply IH].
  intros I. apply NI. apply in_or_app. now left.
Qed.

Lemma batch_ok load solve t d e vs k n (only : bool) : 
  has_experiment t d e (if only then "missing_experiment.json" else "experiment.json") vs -> vials_in_place t d e vs -> well_formed t ->
  (forall v, In v (firstn n (skipn k vs)) -> load v = Ok tt) -> NoDup (map v_uuid vs) ->
  exists t', tree_batch_command load solve d e (Z.of_nat k) (Z.of_nat n) only t = (t', Ok tt) /\
    results_added (fun v => o_prize (solve v)) (firstn n (skipn k vs)) d e t t' /\
    vials_in_place t' d e vs /\ well_formed t' /\
    changes_only (fun p => exists v, In v (firstn n (skipn k vs)) /\
       at_or_below [Name (dataset_value d); Name (experiment_value e); Uid (v_uuid v)] p) t t'.
Proof.
  intros H V W L N. replace (if only then "missing_experiment.json" else "experiment.json") with (experiment_filename only) in H by reflexivity.
  destruct (reading_start t d e vs only H) as [E1 E2]. destruct (has_ready _ _ _ _ _ _ H V) as [D V'].
  set (seg := firstn n (skipn k vs)) in *.
  assert (I : incl seg vs) by apply seg_incl.
  destruct (run_tree load solve d e vs seg [] t (store_of t d e) (conj D V) (fun u => eq_refl) I L) as (t' & rs & st' & F & T & [D' V2] & S').
  change (tree_run_vials load solve d e seg t = (t', Ok rs)) in T.
  destruct (run_list_ok load (fun v => o_prize (solve v)) seg L (seg_NoDup v_uuid vs k n N) (store_of t d e)) as (rs2 & st2 & G & _ & _ & S1 & S2).
  assert (X := eq_trans (eq_sym F) G). injection X as <- <-.
  destruct (run_within load solve d e seg t W) as [W' C]. rewrite T in W', C. cbn [fst] in W', C.
  exists t'. split; [|split; [|split; [exact V2|split; [exact W'|]]]].
  - unfold tree_batch_command. rewrite (bind_to _ _ _ _ _ E1), (bind_to _ _ _ _ _ E2). cbv zeta. rewrite py_slice_seg. fold seg.
    rewrite (bind_to _ _ _ _ _ T). reflexivity.
  - split.
    + intros v X. rewrite S'. now apply S1.
    + intros u U. rewrite S'. now apply S2.
  - intros p Np. destruct (path_dec p (exp_path d e)) as [->|NE]; [rewrite D, D'; reflexivity|].
    apply C. intros [E|X]; [contradiction|]. apply Np. exact X.
Qed.

(** ** One run, and running again what is missing *)

Lemma selected_one {A} (P : A -> Prop) a m : selected P [a] m -> (P a /\ m = [a]) \/ (~ P a /\ m = []).
Proof.
  intros S. inversion S as [|x l sub H1 H2|x l sub H1 H2]; subst; inversion H2; subst; auto.
Qed.

Lemma onerun_ok load solve t d v : lookup t [] = Some Dir -> lab_in_place t d Onerun [v] -> well_formed t -> load v = Ok tt ->
  store_of t d Onerun (v_uuid v) = NoFile ->
  exists t', onerun_command load solve d (Ok v) t = (t', Ok tt) /\
    has_experiment t' d Onerun "experiment.json" [v] /\
    match o_prize (solve v) with
    | Some z =>
        lookup t' [Name (dataset_value d); Name "onerun"; Name "results.json"] = Some (File (Prizes [(v_uuid v, z)])) /\
        lookup t' [Name (dataset_value d); Name "onerun"; Uid (v_uuid v); UidJson (v_uuid v)] = Some (File (Prize z)) /\
        snd (nmissing_command d Onerun t') = Ok (0, 1) /\
        snd (infeasible_command d Onerun t') = Ok (if Z.ltb z (v_quota v) then [v_uuid v] else [])
    | None =>
        lookup t' [Name (dataset_value d); Name "onerun"; Name "results.json"] = Some (File (Prizes [])) /\
        snd (nmissing_command d Onerun t') = Ok (1, 1) /\ snd (infeasible_command d Onerun t') = Ok []
    end.
Proof.
  intros R P W L F.
  destruct (lab_ok load solve t d Onerun [v] R P W) as (t' & E & H & RS & [A1 _] & V).
  { intros x [<-|[]]. exact L. }
  { constructor; [intros []|constructor]. }
  exists t'. split; [exact E|]. split; [exact H|]. specialize (A1 v (or_introl eq_refl)). cbn in RS. cbn beta in A1.
  assert (B : forall x, In x [v] -> store_of t' d Onerun (v_uuid x) <> BadFields /\ store_of t' d Onerun (v_uuid x) <> NotJson).
  { intros x [<-|[]]. rewrite A1. destruct (o_prize (solve v)); [split; discriminate|]. rewrite F. split; discriminate. }
  destruct (nmissing_ok t' d Onerun [v] H V (fun x X => proj1 (B x X))) as (t1 & m1 & N1 & S1 & _).
  destruct (infeasible_cmd_ok t' d Onerun [v] H V B) as (t2 & m2 & N2 & S2 & _).
  apply selected_one in S1. apply selected_one in S2. rewrite N1, N2. cbn [snd].
  unfold without_result in S1. unfold result_below_quota in S2. rewrite A1 in S1, S2.
  destruct (o_prize (solve v)) as [z|].
  - split; [exact RS|]. split.
    { unfold store_of in A1. change (experiment_value Onerun) with "onerun" in A1. cbn [experiment_value] in A1.
      destruct (lookup t' [Name (dataset_value d); Name "onerun"; Uid (v_uuid v); UidJson (v_uuid v)]) as [[|[]]|]; try discriminate A1.
      injection A1 as ->. reflexivity. }
    split.
    + destruct S1 as [[[X|X] _]|[_ ->]]; [discriminate X..|reflexivity].
    + destruct S2 as [[(q & X & Q) ->]|[X ->]].
      * injection X as <-. apply Z.ltb_lt in Q. rewrite Q. reflexivity.
      * destruct (Z.ltb_spec z (v_quota v)); [|reflexivity]. exfalso. apply X. exists z. auto.
  - rewrite F in S1, S2. split; [exact RS|]. split.
    + destruct S1 as [[_ ->]|[X _]]; [reflexivity|]. exfalso. apply X. now left.
    + destruct S2 as [[(q & X & _) _]|[_ ->]]; [discriminate X|reflexivity].
Qed.

Lemma selected_none {A} (P : A -> Prop) l m : selected P l m -> (forall a, In a l -> ~ P a) -> m = [].
Proof.
  induction 1 as [|a l sub H _ IH|a l sub H _ IH]; intros N; [reflexivity| |].
  - exfalso. apply (N a); [now left|exact H].
  - apply IH. intros b I. apply N. now right.
Qed.

Lemma rerun_tree load solve t d e vs : has_experiment t d e "experiment.json" vs -> vials_in_place t d e vs -> well_formed t ->
  lookup t [Name (dataset_value d); Name (experiment_value e); Name "missing_experiment.json"] <> Some Dir ->
  (forall v, In v vs -> store_of t d e (v_uuid v) <> BadFields) -> NoDup (map v_uuid vs) ->
  (forall v, In v vs -> without_result (store_of t d e) v -> load v = Ok tt /\ o_prize (solve v) <> None) ->
  exists t1 t2 t3, tree_missing_command d e t = (t1, Ok tt) /\
    tree_batch_command load solve d e 0 (Z.of_nat (List.length vs)) true t1 = (t2, Ok tt) /\
    nmissing_command d e t2 = (t3, Ok (0, List.length vs)) /\
    forall v, In v vs -> store_of t2 d e (v_uuid v) =
      match store_of t d e (v_uuid v) with ResultFile z => ResultFile z
      | _ => match o_prize (solve v) with Some z => ResultFile z | None => NoFile end end.
Proof.
  intros H V W M B N S. destruct (missing_cmd_ok t d e vs H V M B) as (t1 & m & E1 & SEL & HM & HE & SF & ND).
  assert (W1 : well_formed t1).
  { destruct (commands_own load solve d e (Ok vs) (Ok (mkVial 0 0)) 0 0 true) as (_ & _ & _ & _ & X & _).
    destruct (X t W) as [W1 _]. rewrite E1 in W1. exact W1. }
  assert (ST : forall u, store_of t1 d e u = store_of t d e u).
  { intros u. unfold store_of.
    pose proof (SF [Name (dataset_value d); Name (experiment_value e); Uid u; UidJson u]) as X.
    destruct ND as [_ ND]. specialize (ND [Name (dataset_value d); Name (experiment_value e); Uid u; UidJson u]).
    destruct (lookup t1 [Name (dataset_value d); Name (experiment_value e); Uid u; UidJson u]) as [[|c]|] eqn:L1.
    - destruct (ND eq_refl) as [->|[Y|[Y|(v & _ & Y)]]]; [reflexivity|discriminate Y..].
    - rewrite (proj1 (X c ltac:(discriminate)) eq_refl). reflexivity.
    - destruct (lookup t [Name (dataset_value d); Name (experiment_value e); Uid u; UidJson u]) as [[|c]|] eqn:L; [reflexivity| |reflexivity].
      pose proof (proj2 (X c ltac:(discriminate)) eq_refl) as Y. discriminate Y. }
  assert (VP : vials_in_place t1 d e vs).
  { intros v I. destruct (V v I) as [A C]. split.
    - intros c L. apply SF in L; [|discriminate]. now apply (A c).
    - intros L. destruct ND as [_ ND]. destruct (ND _ L) as [Y|[Y|[Y|(v' & _ & Y)]]]; [contradiction|discriminate Y..]. }
  assert (IN : forall v, In v m <-> In v vs /\ without_result (store_of t d e) v) by exact (selected_In _ _ _ SEL).
  assert (VM : vials_in_place t1 d e m) by (intros v I; apply VP; now apply IN).
  assert (SEG : firstn (List.length vs) (skipn 0 m) = m) by (cbn [skipn]; apply firstn_all2; exact (selected_length _ _ _ SEL)).
  assert (NM : NoDup (map v_uuid m)) by exact (selected_NoDup v_uuid _ _ _ SEL N).
  destruct (batch_ok load solve t1 d e m 0 (List.length vs) true HM VM W1) as (t2 & E2 & [R1 R2] & _ & W2 & CH).
  { rewrite SEG. intros v I. apply IN in I as [I WR]. now apply S. }
  { exact NM. }
  rewrite SEG in R1, R2, CH.
  assert (FIN : forall v, In v vs -> store_of t2 d e (v_uuid v) =
      match store_of t d e (v_uuid v) with ResultFile z => ResultFile z
      | _ => match o_prize (solve v) with Some z => ResultFile z | None => NoFile end end).
  { intros v I. destruct (store_of t d e (v_uuid v)) as [| | |z] eqn:Q.
    - assert (IM : In v m) by (apply IN; split; [exact I|now left]). rewrite (R1 v IM).
      destruct (o_prize (solve v)); [reflexivity|]. now rewrite ST.
    - assert (WR : without_result (store_of t d e) v) by now right. assert (IM : In v m) by (apply IN; split; assumption). rewrite (R1 v IM).
      destruct (S v I WR) as [_ Z]. destruct (o_prize (solve v)); [reflexivity|congruence].
    - exfalso. now apply (B v I).
    - rewrite R2; [rewrite ST; exact Q|]. intros X. apply in_map_iff in X as (w & U & X). apply IN in X as [X [Y|Y]]; rewrite U, Q in Y; discriminate Y. }
  assert (H2 : has_experiment t2 d e "experiment.json" vs).
  { destruct HE as (H0 & H1 & HX & HF). unfold has_experiment.
    rewrite !CH by (intros (v & _ & r & Y); discriminate Y). auto. }
  assert (FILE : forall v, In v vs -> exists z, store_of t2 d e (v_uuid v) = ResultFile z).
  { intros v I. rewrite (FIN v I). destruct (store_of t d e (v_uuid v)) as [| | |z] eqn:Q; [| | |eauto].
    - destruct (S v I (or_introl Q)) as [_ Z]. destruct (o_prize (solve v)); [eauto|congruence].
    - destruct (S v I (or_intror Q)) as [_ Z]. destruct (o_prize (solve v)); [eauto|congruence].
    - exfalso. now apply (B v I). }
  destruct (nmissing_ok t2 d e vs H2) as (t3 & m3 & E3 & S3 & _).
  { intros v I. destruct (FILE v I) as [z Z]. unfold store_of in Z. split.
    - intros c L. destruct W2 as [_ W2].
      destruct (lookup t2 [Name (dataset_value d); Name (experiment_value e); Uid (v_uuid v); UidJson (v_uuid v)]) as [[|x]|] eqn:Q; try discriminate Z.
      pose proof (W2 [Name (dataset_value d); Name (experiment_value e); Uid (v_uuid v)] _ _ Q) as D. rewrite L in D. discriminate D.
    - intros L. rewrite L in Z. discriminate Z. }
  { intros v I. destruct (FILE v I) as [z ->]. discriminate. }
  exists t1, t2, t3. split; [exact E1|]. split; [exact E2|]. split; [|exact FIN].
  rewrite (selected_none _ _ _ S3) in E3; [exact E3|]. intros v I [X|X]; destruct (FILE v I) as [z Z]; rewrite Z in X; discriminate X.
Qed.

(** ** Errors *)

Lemma no_lab_dir d t : lookup t [] = None -> well_formed t ->
  new_lab d t = (t, Throw FileNotFoundErrorPy).
Proof.
  intros N [_ W]. unfold new_lab, mkdir, data_path. cbn [removelast]. rewrite N.
  destruct (lookup t [Name (dataset_value d)]) as [n|] eqn:L; [|reflexivity].
  pose proof (W [] _ _ L) as X. rewrite N in X. discriminate X.
Qed.

(** ** Archives *)

Lemma is_prefix_spec p : forall q, Bool.reflect (at_or_below p q) (is_prefix p q).
Proof.
  induction p as [|a p IH]; intros q; [constructor; exists q; reflexivity|]. destruct q as [|b q]; cbn [is_prefix].
  - constructor. intros [r E]. discriminate E.
  - destruct (comp_eqb_spec a b) as [<-|N]; cbn [andb].
    + destruct (IH q) as [H|H]; constructor.
      * destruct H as [r ->]. exists r. reflexivity.
      * intros [r E]. injection E as E. apply H. now exists r.
    + constructor. intros [r E]. injection E as E _. congruence.
Qed.

Lemma zip_name e e' : Name (experiment_value e ++ ".zip")%string <> Name (experiment_value e').
Proof. intros E. injection E as E. destruct e, e'; vm_compute in E; discriminate E. Qed.
Lemma zip_not_below d e e' : ~ at_or_below (exp_path d e) (zip_path d e').
Proof. intros [r E]. injection E as E. symmetry in E. revert E. apply not_eq_sym. intros X. apply (zip_name e' e). now rewrite X. Qed.

Lemma entries_ok t d e : well_formed t ->
  archive_of t d e (map (fun en => (tl (fst en), snd en)) (filter (fun en => is_prefix (exp_path d e) (fst en)) t)).
Proof.
  intros [K _]. split.
  - rewrite map_map. cbn [fst]. revert K. induction t as [|[q n] t IH]; intros K; [constructor|]. cbn [map fst] in K.
    inversion K as [|? ? NI K']; subst. cbn [filter fst]. destruct (is_prefix_spec (exp_path d e) q) as [[r ->]|]; [|now apply IH].
    cbn [map fst]. constructor; [|now apply IH]. intros I. apply in_map_iff in I as [[q' n'] [E I]]. apply filter_In in I as [I P].
    cbn [fst] in *. destruct (is_prefix_spec (exp_path d e) q') as [[r' ->]|]; [|discriminate P]. cbn [exp_path data_path app tl] in E.
    apply NI. injection E as ->. change (exp_path d e ++ r) with (fst (exp_path d e ++ r, n')). now apply in_map.
  - intros p n. rewrite (lookup_In t _ _ K), in_map_iff. split.
    + intros ([q m] & E & I). cbn [fst snd] in E. apply filter_In in I as [I P]. cbn [fst] in P.
      destruct (is_prefix_spec (exp_path d e) q) as [[r ->]|]; [|discriminate P]. cbn [exp_path data_path app tl] in E. injection E as <- <-.
      split; [exists r; reflexivity|exact I].
    + intros [[r ->] I]. exists (exp_path d e ++ r, n). split; [reflexivity|]. apply filter_In. split; [exact I|]. cbn [fst].
      destruct (is_prefix_spec (exp_path d e) (exp_path d e ++ r)) as [|X]; [reflexivity|]. exfalso. apply X. now exists r.
Qed.

Lemma archive_ext t t' d e es : (forall p, at_or_below (exp_path d e) p -> lookup t' p = lookup t p) -> archive_of t' d e es -> archive_of t d e es.
Proof.
  intros X [N A]. split; [exact N|]. intros p n. rewrite A. split; intros [[r ->] L]; (split; [now exists r|]).
  - rewrite <- L. symmetry. apply X. now exists r.
  - rewrite <- L. apply X. now exists r.
Qed.

Lemma zip_one t d e : well_formed t -> lookup t (data_path d) = Some Dir -> lookup t (zip_path d e) <> Some Dir ->
  lookup t (exp_path d e) <> None ->
  exists es, zip_experiment d e t = (put t (zip_path d e) (File (Archive es)), Ok tt) /\ archive_of t d e es.
Proof.
  intros W D Z X. eexists. split; [|apply (entries_ok t d e W)]. unfold zip_experiment. rewrite D.
  destruct (lookup t (zip_path d e)) as [[|c]|]; [congruence| |]; destruct (lookup t (exp_path d e)); congruence.
Qed.

Lemma zip_ok d : forall es t, well_formed t -> lookup t (data_path d) = Some Dir ->
  (forall e, In e es -> lookup t (zip_path d e) <> Some Dir /\ lookup t (exp_path d e) <> None) ->
  exists t', zip_command d es t = (t', Ok tt) /\ well_formed t' /\
    changes_only (fun p => exists e, In e es /\ p = zip_path d e) t t' /\
    forall e, In e es -> exists a, lookup t' (zip_path d e) = Some (File (Archive a)) /\ archive_of t d e a.
Proof.
  intros es. unfold zip_command. induction es as [|e es IH]; intros t W D H.
  - exists t. split; [reflexivity|split; [exact W|split; [intros p _; reflexivity|intros e []]]].
  - destruct (H e (or_introl eq_refl)) as [Z X]. destruct (zip_one t d e W D Z X) as (a & E & A).
    cbn [foldC]. rewrite (bind_to _ _ _ _ _ E). set (t1 := put t (zip_path d e) (File (Archive a))) in *.
    assert (W1 : well_formed t1) by (apply put_wf; [exact W|exact D|right; exact Z]).
    assert (B1 : forall e' p, at_or_below (exp_path d e') p -> lookup t1 p = lookup t p).
    { intros e' p B. apply lookup_put_other. intros <-. now apply zip_not_below in B. }
    destruct (IH t1 W1) as (t' & E' & W' & C & AR).
    { unfold t1. rewrite lookup_put_other by discriminate. exact D. }
    { intros e' I. destruct (H e' (or_intror I)) as [Z' X']. split.
      - unfold t1. rewrite lookup_put. destruct (path_eqb _ _); [discriminate|exact Z'].
      - rewrite (B1 e' (exp_path d e')); [exact X'|]. exists []. now rewrite app_nil_r. }
    exists t'. split; [exact E'|split; [exact W'|split]].
    + intros p N. rewrite C; [|intros (e' & I & Y); apply N; exists e'; split; [now right|exact Y]].
      apply lookup_put_other. intros <-. apply N. exists e. split; [now left|reflexivity].
    + assert (DEC : {In e es} + {~ In e es}) by (apply in_dec; decide equality).
      intros e' [<-|I].
      * destruct DEC as [I|NI].
        -- destruct (AR e I) as (a' & L & A'). exists a'. split; [exact L|]. apply (archive_ext t t1); [|exact A']. apply B1.
        -- exists a. split; [|exact A]. rewrite C; [unfold t1; apply lookup_put_same|]. intros (e' & I & Y).
           injection Y as Y. apply NI. replace e with e'; [exact I|]. clear -Y. destruct e, e'; vm_compute in Y; congruence.
      * destruct (AR e' I) as (a' & L & A'). exists a'. split; [exact L|]. apply (archive_ext t t1); [|exact A']. apply B1.
Qed.

Lemma ensure_ok : forall rest done s,
  (forall r1 r2, rest = r1 ++ r2 -> r1 <> [] -> lookup s (done ++ r1) = Some Dir \/ lookup s (done ++ r1) = None) ->
  exists s', ensure_directory done rest s = (s', Ok tt) /\
    (forall q, lookup s' q = lookup s q \/ exists r1 r2, rest = r1 ++ r2 /\ r1 <> [] /\ q = done ++ r1 /\ lookup s' q = Some Dir) /\
    (forall r1 r2, rest = r1 ++ r2 -> r1 <> [] -> lookup s' (done ++ r1) = Some Dir).
Proof.
  induction rest as [|c rest IH]; intros done s H.
  - exists s. split; [reflexivity|]. split; [now left|]. intros r1 r2 E N. destruct r1; [congruence|discriminate E].
  - cbn [ensure_directory].
    assert (X : exists s1, ensure_directory done (c :: rest) s = ensure_directory (done ++ [c]) rest s1 /\
      lookup s1 (done ++ [c]) = Some Dir /\ forall q, q <> done ++ [c] -> lookup s1 q = lookup s q).
    { cbn [ensure_directory]. destruct (H [c] rest eq_refl ltac:(discriminate)) as [L|L]; rewrite L.
      - exists s. auto.
      - exists (put s (done ++ [c]) Dir). split; [reflexivity|]. split; [apply lookup_put_same|]. intros q N. apply lookup_put_other. congruence. }
    destruct X as (s1 & E1 & L1 & O1). cbn [ensure_directory] in E1. rewrite E1.
    destruct (IH (done ++ [c]) s1) as (s' & E & A & B).
    { intros r1 r2 E N. rewrite <- app_assoc. cbn [app]. rewrite O1.
      - apply (H (c :: r1) r2); [now rewrite E|discriminate].
      - intros Y. apply app_inv_head in Y. injection Y as Y. contradiction. }
    exists s'. split; [exact E|]. split.
    + intros q. destruct (A q) as [Y|(r1 & r2 & Y1 & Y2 & Y3 & Y4)].
      * destruct (path_dec q (done ++ [c])) as [->|N].
        -- right. exists [c], rest. rewrite Y, L1. split; [reflexivity|split; [discriminate|auto]].
        -- left. rewrite Y. now apply O1.
      * right. exists (c :: r1), r2. split; [now rewrite Y1|split; [discriminate|]]. split; [|exact Y4]. rewrite Y3, <- app_assoc. reflexivity.
    + intros r1 r2 Y N. destruct r1 as [|c' r1]; [congruence|]. injection Y as <- Y. destruct r1 as [|c2 r1].
      * destruct (A (done ++ [c])) as [Z|(x & y & _ & _ & _ & Z)]; [rewrite Z; exact L1|exact Z].
      * specialize (B (c2 :: r1) r2 Y ltac:(discriminate)). rewrite <- app_assoc in B. exact B.
Qed.

(** Parents of what exists are directories. *)
Lemma parents t : well_formed t -> forall r p n, lookup t (p ++ r) = Some n -> r <> [] -> lookup t p = Some Dir.
Proof.
  intros [_ W] r. induction r as [|c r IH] using rev_ind; intros p n L N; [congruence|]. rewrite app_assoc in L. apply W in L.
  destruct r as [|a r]; [now rewrite app_nil_r in L|]. exact (IH p Dir L ltac:(discriminate)).
Qed.

Section Unzip.
Context (t : tree) (d : dataset_name) (e : experiment_name) (W : well_formed t).

(** [s'] is [s], with what is in [t] at some more of its paths. *)
Definition towards (s s' : tree) : Prop :=
  forall p, lookup s' p = lookup s p \/ (at_or_below (exp_path d e) p /\ lookup t p <> None /\ lookup s' p = lookup t p).
Definition free (s : tree) : Prop := forall p, at_or_below (exp_path d e) p -> ~ clash (lookup t p) (lookup s p).

Lemma towards_trans a b c : towards a b -> towards b c -> towards a c.
Proof. intros X Y p. destruct (Y p) as [E|E]; [rewrite E; apply X|now right]. Qed.
Lemma towards_free s s' : free s -> towards s s' -> free s'.
Proof.
  intros F T p B C. destruct (T p) as [E|(_ & _ & E)]; rewrite E in C; [now apply (F p B)|].
  destruct C as [(c & X & Y)|(c & X & Y)]; congruence.
Qed.

Lemma ensure_dir s p : lookup s (data_path d) = Some Dir -> free s -> at_or_below [Name (experiment_value e)] p -> lookup t (data_path d ++ p) = Some Dir ->
  exists s', ensure_directory [] (data_path d ++ p) s = (s', Ok tt) /\ towards s s' /\ lookup s' (data_path d ++ p) = Some Dir.
Proof.
  intros D F [r ->] L.
  assert (PRE : forall r1 r2, data_path d ++ [Name (experiment_value e)] ++ r = r1 ++ r2 -> r1 <> [] ->
    r1 = data_path d \/ (at_or_below (exp_path d e) r1 /\ lookup t r1 = Some Dir)).
  { intros r1 r2 E N. destruct r1 as [|a [|b r1]]; [congruence| |].
    - left. injection E as <- _. reflexivity.
    - right. cbn in E. injection E as <- <- E. split; [now exists r1|].
      destruct r2 as [|c r2].
      + rewrite app_nil_r in E. subst r. exact L.
      + apply (parents t W (c :: r2) _ Dir); [|discriminate]. cbn [app data_path] in L |- *. rewrite <- E. exact L. }
  destruct (ensure_ok (data_path d ++ [Name (experiment_value e)] ++ r) [] s) as (s' & E & A & B).
  { intros r1 r2 Y N. cbn [app]. destruct (PRE r1 r2 Y N) as [->|[BL Q]]; [now left|]. specialize (F r1 BL). rewrite Q in F.
    destruct (lookup s r1) as [[|c]|]; [now left| |now right]. exfalso. apply F. right. exists c. auto. }
  exists s'. split; [exact E|]. split.
  - intros q. destruct (A q) as [X|(r1 & r2 & Y1 & Y2 & Y3 & Y4)]; [now left|]. cbn [app] in Y3. subst q.
    destruct (PRE r1 r2 Y1 Y2) as [->|[BL Q]]; [left; now rewrite D|]. right. rewrite Q. split; [exact BL|split; [discriminate|exact Y4]].
  - apply (B (data_path d ++ [Name (experiment_value e)] ++ r) []); [now rewrite app_nil_r|discriminate].
Qed.

Lemma data_kept s s' : lookup s (data_path d) = Some Dir -> towards s s' -> lookup s' (data_path d) = Some Dir.
Proof. intros D T. destruct (T (data_path d)) as [E|([r X] & _)]; [now rewrite E|discriminate X]. Qed.

Lemma extract_ok s p n : lookup s (data_path d) = Some Dir -> free s -> lookup t (exp_path d e) = Some Dir ->
  at_or_below [Name (experiment_value e)] p -> lookup t (data_path d ++ p) = Some n ->
  exists s', extract d (p, n) s = (s', Ok tt) /\ towards s s' /\ lookup s' (data_path d ++ p) = Some n.
Proof.
  intros D F XD B L. unfold extract. cbn [fst snd]. destruct n as [|c]; [now apply ensure_dir|].
  destruct B as [r ->]. destruct r as [|a r] using rev_ind.
  { exfalso. change (lookup t (exp_path d e) = Some (File c)) in L. rewrite XD in L. discriminate L. }
  clear IHr. rewrite !app_assoc in *. rewrite removelast_snoc in *.
  assert (LD : lookup t (data_path d ++ [Name (experiment_value e)] ++ r) = Some Dir).
  { rewrite app_assoc. exact (parents t W [a] _ _ L ltac:(discriminate)). }
  destruct (ensure_dir s ([Name (experiment_value e)] ++ r) D F (ex_intro _ r eq_refl) LD) as (s1 & E1 & T1 & L1).
  rewrite app_assoc in E1, L1. rewrite (bind_to _ _ _ _ _ E1).
  assert (BL : at_or_below (exp_path d e) (((data_path d ++ [Name (experiment_value e)]) ++ r) ++ [a])) by (exists (r ++ [a]); now rewrite app_assoc).
  pose proof (towards_free s s1 F T1 _ BL) as NC.
  rewrite write_file_ok; [|exact L1|].
  - eexists. split; [reflexivity|]. split; [|apply lookup_put_same]. apply (towards_trans s s1); [exact T1|].
    intros q. rewrite lookup_put. destruct (path_eqb_spec (((data_path d ++ [Name (experiment_value e)]) ++ r) ++ [a]) q) as [<-|]; [|now left].
    right. split; [exact BL|]. rewrite L. split; [discriminate|reflexivity].
  - intros Q. apply NC. left. exists c. rewrite L, Q. auto.
Qed.

Lemma extract_all : forall a s, lookup s (data_path d) = Some Dir -> free s -> lookup t (exp_path d e) = Some Dir ->
  (forall p n, In (p, n) a -> at_or_below [Name (experiment_value e)] p /\ lookup t (data_path d ++ p) = Some n) ->
  exists s', foldC (fun _ en => extract d en) a tt s = (s', Ok tt) /\ towards s s' /\
    forall p n, In (p, n) a -> lookup s' (data_path d ++ p) = Some n.
Proof.
  induction a as [|[p n] a IH]; intros s D F XD H.
  - exists s. split; [reflexivity|]. split; [intros p; now left|intros p n []].
  - destruct (H p n (or_introl eq_refl)) as [B L]. destruct (extract_ok s p n D F XD B L) as (s1 & E1 & T1 & L1).
    destruct (IH s1) as (s' & E & T & A).
    { now apply (data_kept s). } { now apply (towards_free s). } { exact XD. } { intros q m I. apply H. now right. }
    exists s'. cbn [foldC]. rewrite (bind_to _ _ _ _ _ E1). split; [exact E|]. split; [now apply (towards_trans s s1)|].
    intros q m [X|I]; [|now apply A]. injection X as <- <-. destruct (T (data_path d ++ p)) as [Y|(_ & _ & Y)]; rewrite Y; assumption.
Qed.
End Unzip.

Lemma unzip_one t d e s a : well_formed t -> lookup t (exp_path d e) = Some Dir -> lookup s (data_path d) = Some Dir -> free t d e s ->
  lookup s (zip_path d e) = Some (File (Archive a)) -> archive_of t d e a ->
  exists s', unzip_experiment d e s = (s', Ok tt) /\ towards t d e s s' /\
    forall p, at_or_below (exp_path d e) p -> lookup s' p = match lookup t p with Some n => Some n | None => lookup s p end.
Proof.
  intros W XD D F Z [_ A]. destruct (extract_all t d e W a s D F XD) as (s' & E & T & X).
  { intros p n I. now apply A. }
  exists s'. split; [unfold unzip_experiment; now rewrite Z|]. split; [exact T|]. intros p [r ->].
  destruct (lookup t (exp_path d e ++ r)) as [n|] eqn:L.
  - apply (X (Name (experiment_value e) :: r)). apply A. split; [now exists r|exact L].
  - destruct (T (exp_path d e ++ r)) as [Y|(_ & Y & _)]; [exact Y|congruence].
Qed.

Lemma unzip_ok t d : well_formed t -> forall es s, lookup s (data_path d) = Some Dir ->
  (forall e, In e es -> lookup t (exp_path d e) = Some Dir /\ free t d e s /\
     exists a, lookup s (zip_path d e) = Some (File (Archive a)) /\ archive_of t d e a) ->
  exists s', unzip_command d es s = (s', Ok tt) /\
    (forall e p, In e es -> at_or_below (exp_path d e) p -> lookup s' p = match lookup t p with Some n => Some n | None => lookup s p end) /\
    changes_only (fun p => exists e, In e es /\ at_or_below (exp_path d e) p) s s'.
Proof.
  intros W es. unfold unzip_command. induction es as [|e es IH]; intros s D H.
  - exists s. split; [reflexivity|]. split; [intros e p []|intros p _; reflexivity].
  - destruct (H e (or_introl eq_refl)) as (XD & F & a & Z & A). destruct (unzip_one t d e s a W XD D F Z A) as (s1 & E1 & T1 & L1).
    assert (ANY : forall p, lookup s1 p = lookup s p \/ (lookup t p <> None /\ lookup s1 p = lookup t p)).
    { intros p. destruct (T1 p) as [Y|(_ & Y)]; auto. }
    destruct (IH s1) as (s' & E & B & C).
    { now apply (data_kept t d e s). }
    { intros e' I. destruct (H e' (or_intror I)) as (XD' & F' & a' & Z' & A'). split; [exact XD'|]. split.
      - intros p BL CL. destruct (ANY p) as [Y|[_ Y]]; rewrite Y in CL; [now apply (F' p BL)|].
        destruct CL as [(c & X1 & X2)|(c & X1 & X2)]; congruence.
      - exists a'. split; [|exact A']. destruct (T1 (zip_path d e')) as [Y|(Y & _)]; [now rewrite Y|]. now apply zip_not_below in Y. }
    exists s'. cbn [foldC]. rewrite (bind_to _ _ _ _ _ E1). split; [exact E|]. split.
    + intros e' p I BL.
      destruct (in_dec (fun x y : experiment_name => ltac:(decide equality) : {x = y} + {x <> y}) e' es) as [I'|NI].
      * rewrite (B e' p I' BL). destruct (lookup t p) eqn:L; [reflexivity|]. destruct (ANY p) as [Y|[Y _]]; congruence.
      * destruct I as [->|I]; [|contradiction]. 
        assert (DEC : (exists e2, In e2 es /\ at_or_below (exp_path d e2) p) \/ ~ (exists e2, In e2 es /\ at_or_below (exp_path d e2) p)).
        { clear. induction es as [|x es IH]; [right; intros (e2 & [] & _)|]. destruct (is_prefix_spec (exp_path d x) p) as [Y|Y].
          - left. exists x. split; [now left|exact Y].
          - destruct IH as [(e2 & I & Z)|N]; [left; exists e2; split; [now right|exact Z]|]. right. intros (e2 & [<-|I] & Z); [contradiction|].
            apply N. now exists e2. }
        destruct DEC as [(e2 & I2 & B2)|N].
        -- rewrite (B e2 p I2 B2). destruct (lookup t p) eqn:L; [reflexivity|]. destruct (ANY p) as [Y|[Y _]]; congruence.
        -- rewrite (C p N). now apply L1.
    + intros p N. rewrite C; [|intros (e' & I & Y); apply N; exists e'; split; [now right|exact Y]].
      destruct (T1 p) as [Y|(Y & _)]; [exact Y|]. exfalso. apply N. exists e. split; [now left|exact Y].
Qed.

(** ** Directories that are made *)

Lemma dirs_ok t d e b : lookup t [] = Some Dir -> (forall c, lookup t (data_path d) <> Some (File c)) -> (forall c, lookup t (exp_path d e) <> Some (File c)) ->
  lookup t (exp_file d e (experiment_filename b)) = None ->
  exists t1 t', new_lab d t = (t1, Ok tt) /\ read_experiment_from_file d e b t1 = (t', Throw FileNotFoundErrorPy) /\
    lookup t' (data_path d) = Some Dir /\ lookup t' (exp_path d e) = Some Dir /\
    forall p, p <> data_path d -> p <> exp_path d e -> lookup t' p = lookup t p.
Proof.
  intros R P1 P2 N.
  destruct (mkdir_with t [] (Name (dataset_value d)) P1 R) as (t1 & E1 & W1). cbn [app] in *. fold (data_path d) in *.
  assert (D1 : lookup t1 (data_path d) = Some Dir) by (rewrite W1, path_eqb_refl; reflexivity).
  assert (O1 : forall q, q <> data_path d -> lookup t1 q = lookup t q).
  { intros q X. rewrite W1. destruct (path_eqb_spec (data_path d) q); [congruence|reflexivity]. }
  destruct (mkdir_with t1 (data_path d) (Name (experiment_value e))) as (t1' & E2 & W2).
  { intros x. rewrite O1 by discriminate. apply P2. }
  { exact D1. }
  fold (exp_path d e) in *.
  assert (O2 : forall q, q <> exp_path d e -> lookup t1' q = lookup t1 q).
  { intros q X. rewrite W2. destruct (path_eqb_spec (exp_path d e) q); [congruence|reflexivity]. }
  exists t1, t1'. split; [exact E1|]. split; [|split; [|split]].
  - unfold read_experiment_from_file. rewrite (bind_to (get_experiment_dir d e) _ t1 t1' (exp_path d e)).
    + rewrite O2, O1, N by discriminate. reflexivity.
    + unfold get_experiment_dir. rewrite (bind_to _ _ _ _ _ E2). reflexivity.
  - rewrite O2 by discriminate. exact D1.
  - rewrite W2, path_eqb_refl. reflexivity.
  - intros p A B. rewrite O2, O1 by assumption. reflexivity.
Qed.

Lemma bind_throw {A B} (m : cmd A) (f : A -> cmd B) t t' x : m t = (t', Throw x) -> cbind m f t = (t', Throw x).
Proof. intros E. unfold cbind. now rewrite E. Qed.

Lemma never_set_up load solve t d e k n : lookup t [] = Some Dir -> (forall c, lookup t (data_path d) <> Some (File c)) ->
  (forall c, lookup t (exp_path d e) <> Some (File c)) -> lookup t (exp_file d e "experiment.json") = None ->
  exists t', nmissing_command d e t = (t', Throw FileNotFoundErrorPy) /\ infeasible_command d e t = (t', Throw FileNotFoundErrorPy) /\
    tree_missing_command d e t = (t', Throw FileNotFoundErrorPy) /\
    tree_batch_command load solve d e k n false t = (t', Throw FileNotFoundErrorPy) /\
    lookup t' (data_path d) = Some Dir /\ lookup t' (exp_path d e) = Some Dir /\
    forall p, p <> data_path d -> p <> exp_path d e -> lookup t' p = lookup t p.
Proof.
  intros R P1 P2 N. destruct (dirs_ok t d e false R P1 P2 N) as (t1 & t' & E1 & E2 & D1 & D2 & O). exists t'.
  unfold nmissing_command, infeasible_command, tree_missing_command, tree_batch_command.
  rewrite !(bind_to _ _ _ _ _ E1). rewrite !(bind_throw _ _ _ _ _ E2). repeat (split; [reflexivity|]). auto.
Qed.

Lemma no_lab_dir_commands load solve d e v vs k n b t : lookup t [] = None -> well_formed t ->
  setup_command d e (Ok vs) t = (t, Throw FileNotFoundErrorPy) /\ lab_command load solve d e (Ok vs) t = (t, Throw FileNotFoundErrorPy) /\
  onerun_command load solve d (Ok v) t = (t, Throw FileNotFoundErrorPy) /\
  tree_batch_command load solve d e k n b t = (t, Throw FileNotFoundErrorPy) /\
  tree_missing_command d e t = (t, Throw FileNotFoundErrorPy) /\ nmissing_command d e t = (t, Throw FileNotFoundErrorPy) /\
  infeasible_command d e t = (t, Throw FileNotFoundErrorPy).
Proof.
  intros N W. pose proof (no_lab_dir d t N W) as E.
  unfold setup_command, lab_command, onerun_command, nmissing_command, infeasible_command, tree_missing_command, tree_batch_command.
  rewrite !(bind_to (lift _) _ t t _ eq_refl). rewrite !(bind_throw _ _ _ _ _ E). repeat (split; [reflexivity|]). reflexivity.
Qed.

Lemma roundtrip t d es t1 t2 : well_formed t -> lookup t (data_path d) = Some Dir ->
  (forall e, In e es -> lookup t (zip_path d e) <> Some Dir /\ lookup t (exp_path d e) = Some Dir) ->
  zip_command d es t = (t1, Ok tt) -> lookup t2 (data_path d) = Some Dir ->
  (forall e, In e es -> lookup t2 (zip_path d e) = lookup t1 (zip_path d e)) ->
  (forall e p, In e es -> at_or_below (exp_path d e) p -> ~ clash (lookup t p) (lookup t2 p)) ->
  exists t3, unzip_command d es t2 = (t3, Ok tt) /\
    (forall e p, In e es -> at_or_below (exp_path d e) p -> lookup t3 p = match lookup t p with Some n => Some n | None => lookup t2 p end) /\
    changes_only (fun p => exists e, In e es /\ at_or_below (exp_path d e) p) t2 t3.
Proof.
  intros W D H Z D2 A F. destruct (zip_ok d es t W D) as (t1' & Z' & _ & _ & AR).
  { intros e I. destruct (H e I) as [X Y]. split; [exact X|]. rewrite Y. discriminate. }
  rewrite Z in Z'. injection Z' as <-. apply (unzip_ok t d W es t2 D2). intros e I. destruct (H e I) as [_ X]. split; [exact X|]. split.
  - intros p B. now apply (F e).
  - rewrite (A e I). apply (AR e I).
Qed.

(** ** Commands end with a value or an exception *)

Definition definite {A} (m : cmd A) : Prop := forall t, ends (snd (m t)).

Lemma definite_ret : forall A (a : A), definite (ret a).
Proof. intros A a t. left. now exists a. Qed.
Lemma definite_lift : forall A (r : res A), ends r -> definite (lift r).
Proof. intros A r E t. exact E. Qed.
Lemma definite_bind : forall A B (m : cmd A) (f : A -> cmd B), definite m -> (forall a, definite (f a)) -> definite (cbind m f).
Proof.
  intros A B m f M F t. unfold cbind. specialize (M t). destruct (m t) as [t' r]; cbn [snd] in M.
  destruct M as [[a ->]|[x ->]]; [apply F|]. right. now exists x.
Qed.
Lemma definite_attempt : forall A B (m : cmd A) (f : res A -> cmd B), definite m -> (forall r, ends r -> definite (f r)) ->
  definite (cbind (attempt m) f).
Proof.
  intros A B m f M F t. unfold cbind, attempt. specialize (M t). destruct (m t) as [t' r]; cbn [snd] in M. now apply F.
Qed.
Lemma definite_fold : forall A S (f : S -> A -> cmd S) l, (forall s a, In a l -> definite (f s a)) -> forall s, definite (foldC f l s).
Proof.
  intros A S f l. induction l as [|a l IH]; intros F s; [apply definite_ret|].
  apply definite_bind; [apply F; now left|]. intros s'. apply IH. intros. apply F. now right.
Qed.
Lemma definite_mkdir : forall p, definite (mkdir p).
Proof.
  intros p t. unfold mkdir, ends. destruct (lookup t p) as [[|]|]; [| |destruct (lookup t (removelast p)) as [[|]|]]; cbn; eauto.
Qed.
Lemma definite_write : forall p c, definite (write_file p c).
Proof.
  intros p c t. unfold write_file, ends. destruct (lookup t p) as [[|]|]; [| |destruct (lookup t (removelast p)) as [[|]|]]; cbn; eauto.
Qed.
Lemma definite_exp_dir : forall d e, definite (get_experiment_dir d e).
Proof. intros d e. apply definite_bind; [apply definite_mkdir|]. intros _. apply definite_ret. Qed.
Lemma definite_vial_dir : forall d e u, definite (get_vial_dir d e u).
Proof.
  intros d e u. apply definite_bind; [apply definite_exp_dir|]. intros _. apply definite_bind; [apply definite_mkdir|].
  intros _. apply definite_ret.
Qed.
Lemma definite_read_exp : forall d e b, definite (read_experiment_from_file d e b).
Proof.
  intros d e b. apply definite_bind; [apply definite_exp_dir|]. intros _ t. unfold ends. cbn [snd].
  destruct (lookup t _) as [[|[]]|]; eauto.
Qed.
Lemma definite_write_exp : forall d e vs b, definite (write_experiment_to_file d e vs b).
Proof. intros. apply definite_bind; [apply definite_exp_dir|]. intros _. apply definite_write. Qed.
Lemma definite_write_results : forall d e rs, definite (write_results_to_file d e rs).
Proof. intros. apply definite_bind; [apply definite_exp_dir|]. intros _. apply definite_write. Qed.
Lemma definite_read_json : forall p u, definite (read_from_json_file p u).
Proof.
  intros p u t. unfold read_from_json_file, ends. cbn [snd]. destruct (lookup t p); [|eauto].
  destruct (lookup t _) as [[|[]]|]; eauto.
Qed.
Lemma definite_write_json : forall p u z, definite (write_to_json_file p u z).
Proof. intros p u z t. unfold write_to_json_file. destruct (lookup t p); [apply definite_write|]. right. cbn. eauto. Qed.
Lemma definite_read_vial : forall d e u, definite (act dir <- get_vial_dir d e u; read_from_json_file dir u).
Proof. intros. apply definite_bind; [apply definite_vial_dir|]. intros. apply definite_read_json. Qed.
Lemma definite_missing : forall d e vs, definite (tree_missing_vials d e vs).
Proof.
  intros. apply definite_fold. intros s v _. apply definite_attempt; [apply definite_read_vial|].
  intros r [[a ->]|[x ->]]; [apply definite_ret|].
  destruct x; try apply definite_ret; apply definite_lift; right; eauto.
Qed.
Lemma definite_infeasible : forall d e vs, definite (tree_infeasible_vials d e vs).
Proof.
  intros. apply definite_fold. intros s v _. apply definite_attempt; [apply definite_read_vial|].
  intros r [[a ->]|[x ->]]; [apply definite_ret|].
  destruct x; try apply definite_ret; apply definite_lift; right; eauto.
Qed.
Lemma definite_logs : forall p l, definite (write_logs p l).
Proof.
  intros. apply definite_fold. intros s a _. apply definite_attempt; [apply definite_write|]. intros. apply definite_ret.
Qed.
Lemma definite_run : forall load solve d e vs, (forall v, In v vs -> ends (load v)) -> definite (tree_run_vials load solve d e vs).
Proof.
  intros load solve d e vs L. apply definite_fold. intros s v I. apply definite_bind; [now apply definite_lift, L|]. intros _.
  apply definite_bind; [apply definite_vial_dir|]. intros dir. apply definite_bind; [apply definite_logs|]. intros _.
  destruct (o_prize (solve v)); [|apply definite_ret].
  apply definite_attempt; [|intros; apply definite_ret].
  apply definite_bind; [apply definite_vial_dir|]. intros. apply definite_write_json.
Qed.
Lemma definite_ensure : forall rest done, definite (ensure_directory done rest).
Proof.
  induction rest as [|c rest IH]; intros done t; cbn [ensure_directory]; [left; cbn; eauto|].
  destruct (lookup t (done ++ [c])) as [[|]|]; [apply IH|right; cbn; eauto|apply IH].
Qed.
Lemma definite_zip : forall d es, definite (zip_command d es).
Proof.
  intros d es. apply definite_fold. intros _ e _ t. unfold zip_experiment, ends.
  destruct (lookup t (data_path d)) as [[|]|]; cbn [snd]; eauto.
  destruct (lookup t (zip_path d e)) as [[|]|]; cbn [snd]; eauto; destruct (lookup t (exp_path d e)); cbn [snd]; eauto.
Qed.
Lemma definite_unzip : forall d es, definite (unzip_command d es).
Proof.
  intros d es. apply definite_fold. intros _ e _ t. unfold unzip_experiment, ends.
  destruct (lookup t (zip_path d e)) as [[|[]]|]; cbn [snd]; eauto.
  apply (definite_fold _ _ (fun _ en => extract d en)). intros s [p [|c]] _; unfold extract; cbn [fst snd];
    [apply definite_ensure|]. apply definite_bind; [apply definite_ensure|]. intros _. apply definite_write.
Qed.

Lemma commands_definite : forall load solve d e vials problem k n only es, (forall v, ends (load v)) -> ends vials -> ends problem ->
  definite (setup_command d e vials) /\ definite (lab_command load solve d e vials) /\
  definite (onerun_command load solve d problem) /\ definite (tree_batch_command load solve d e k n only) /\
  definite (tree_missing_command d e) /\ definite (nmissing_command d e) /\ definite (infeasible_command d e) /\
  definite (zip_command d es) /\ definite (unzip_command d es).
Proof.
  intros load solve d e vials problem k n only es L V P.
  assert (N : definite (new_lab d)) by apply definite_mkdir.
  split; [|split; [|split; [|split; [|split; [|split; [|split; [|split; [apply definite_zip|apply definite_unzip]]]]]]]].
  - apply definite_bind; [now apply definite_lift|]. intros vs. apply definite_bind; [exact N|]. intros _. apply definite_write_exp.
  - apply definite_bind; [now apply definite_lift|]. intros vs. apply definite_bind; [exact N|]. intros _.
    apply definite_bind; [apply definite_write_exp|]. intros _. apply definite_bind; [now apply definite_run|].
    intros. apply definite_write_results.
  - apply definite_bind; [now apply definite_lift|]. intros v. apply definite_bind; [exact N|]. intros _.
    apply definite_bind; [apply definite_write_exp|]. intros _. apply definite_bind; [now apply definite_run|].
    intros. apply definite_write_results.
  - apply definite_bind; [exact N|]. intros _. apply definite_bind; [apply definite_read_exp|]. intros vs.
    apply definite_bind; [now apply definite_run|]. intros. apply definite_ret.
  - apply definite_bind; [exact N|]. intros _. apply definite_bind; [apply definite_read_exp|]. intros vs.
    apply definite_bind; [apply definite_missing|]. intros. apply definite_write_exp.
  - apply definite_bind; [exact N|]. intros _. apply definite_bind; [apply definite_read_exp|]. intros vs.
    apply definite_bind; [apply definite_missing|]. intros. apply definite_ret.
  - apply definite_bind; [exact N|]. intros _. apply definite_bind; [apply definite_read_exp|]. intros vs.
    apply definite_bind; [apply definite_infeasible|]. intros. apply definite_ret.
Qed.

(** ** Which exception *)

Lemma mkdir_file : forall p c t, lookup t p = Some (File c) -> mkdir p t = (t, Throw FileExistsErrorPy).
Proof. intros p c t E. unfold mkdir. now rewrite E. Qed.
Lemma mkdir_dir : forall p t, lookup t p = Some Dir -> mkdir p t = (t, Ok tt).
Proof. intros p t E. unfold mkdir. now rewrite E. Qed.

Lemma commands_stop : forall load solve d e vs v k n only t x, new_lab d t = (t, Throw x) ->
  setup_command d e (Ok vs) t = (t, Throw x) /\ lab_command load solve d e (Ok vs) t = (t, Throw x) /\
  onerun_command load solve d (Ok v) t = (t, Throw x) /\ tree_batch_command load solve d e k n only t = (t, Throw x) /\
  tree_missing_command d e t = (t, Throw x) /\ nmissing_command d e t = (t, Throw x) /\ infeasible_command d e t = (t, Throw x).
Proof.
  intros load solve d e vs v k n only t x E.
  split; [|split; [|split; [|split; [|split; [|split]]]]];
    unfold setup_command, lab_command, onerun_command, tree_batch_command, tree_missing_command, nmissing_command, infeasible_command,
      cbind, lift; now rewrite E.
Qed.

Lemma readers_stop : forall load solve d e k n only t x, lookup t [Name (dataset_value d)] = Some Dir ->
  read_experiment_from_file d e only t = (t, Throw x) ->
  tree_batch_command load solve d e k n only t = (t, Throw x) /\
  (only = false -> tree_missing_command d e t = (t, Throw x) /\ nmissing_command d e t = (t, Throw x) /\
    infeasible_command d e t = (t, Throw x)).
Proof.
  intros load solve d e k n only t x D R. assert (N : new_lab d t = (t, Ok tt)) by now apply mkdir_dir.
  split; [|intros ->; split; [|split]];
    unfold tree_batch_command, tree_missing_command, nmissing_command, infeasible_command, cbind; rewrite N, R; reflexivity.
Qed.

Lemma read_exp_at : forall d e only t, lookup t [Name (dataset_value d); Name (experiment_value e)] = Some Dir ->
  forall n, lookup t [Name (dataset_value d); Name (experiment_value e); Name (experiment_filename only)] = n ->
  read_experiment_from_file d e only t = (t,
    match n with
    | None => Throw FileNotFoundErrorPy
    | Some Dir => Throw OSErrorPy
    | Some (File (Vials vs)) => Ok vs
    | Some (File Text) | Some (File (Archive _)) => Throw JSONDecodeErrorPy
    | Some (File _) => Throw ValidationErrorPy
    end).
Proof.
  intros d e only t E n <-. unfold read_experiment_from_file, get_experiment_dir, cbind.
  change (exp_path d e) with [Name (dataset_value d); Name (experiment_value e)]. rewrite (mkdir_dir _ _ E). reflexivity.
Qed.
