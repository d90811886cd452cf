(** * P_Errors: the exceptions of the readers and of the Python functions *)
From Coq Require Import String Lia ZArith.
From Verif Require Import Base P_Base M_Stats M_Events P_Stats M_Lab M_Python Spec_Python P_Python M_PyWrap Spec_Errors.
Open Scope list_scope.
Open Scope Z_scope.

(** ** YAML *)

Lemma yget_In n k t : NoDup (map fst n) -> (yget n k = Some t <-> In (k, t) n).
Proof.
  induction n as [|(k', v) n IH]; cbn [yget map fst In]; intros N; [split; [discriminate|tauto]|].
  inversion N as [|? ? NI N']; subst. destruct (String.eqb_spec k' k) as [-> | NE].
  - split; [intros [= ->]; auto|]. intros [[= ->]|H]; [reflexivity|]. exfalso. apply NI. apply (in_map fst) in H. exact H.
  - rewrite (IH N'). split; [auto|]. intros [[= -> ->]|H]; [congruence|exact H].
Qed.

Definition reads {A} (m : res A) (P : A -> Prop) (e : exn) : Prop :=
  (forall a, m = Ok a <-> P a) /\ ((exists a, m = Ok a) \/ m = Throw e).

Lemma reads_bind {A B} (m : res A) (f : A -> res B) P Q e : reads m P e -> (forall a, reads (f a) (Q a) e) ->
  reads (bind m f) (fun b => exists a, P a /\ Q a b) e.
Proof.
  intros (HM & TM) HF. split.
  - intros b. split.
    + intros E. destruct m as [a| | |]; try discriminate E. exists a. split; [now apply HM|]. now apply (proj1 (HF a)).
    + intros (a & HP & HQ). apply HM in HP. rewrite HP. cbn. now apply (proj1 (HF a)).
  - destruct TM as [(a & ->)| ->]; [|right; reflexivity]. cbn. apply (proj2 (HF a)).
Qed.

Lemma reads_ok {A} (x : A) e : reads (Ok x) (fun a => a = x) e.
Proof. split; [|eauto]. intros a. split; congruence. Qed.

Lemma reads_ext {A} (m : res A) P Q e : reads m P e -> (forall a, P a <-> Q a) -> reads m Q e.
Proof. intros (H & T) E. split; [|exact T]. intros a. rewrite H. apply E. Qed.

Lemma yint_reads lo hi n k : NoDup (map fst n) -> reads (yint lo hi n k) (int_field lo hi n k) YamlBadConversion.
Proof.
  intros N. split.
  - intros z. unfold int_field, yint. split.
    + destruct (yget n k) as [t|] eqn:E; [|discriminate]. destruct (undec t) as [y|] eqn:U; [|discriminate].
      destruct (andb (lo <=? y) (y <=? hi)) eqn:B; [|discriminate]. intros [= <-]. apply andb_prop in B.
      exists t. apply (yget_In _ _ _ N) in E. split; [exact E|]. split; [exact U|]. lia.
    + intros (t & I & U & L). apply (yget_In _ _ _ N) in I. rewrite I, U.
      replace (andb (lo <=? z) (z <=? hi)) with true; [reflexivity|]. symmetry. apply andb_true_intro. lia.
  - unfold yint. destruct (yget n k) as [t|]; [|auto]. destruct (undec t) as [y|]; [|auto]. destruct (andb _ _); eauto.
Qed.

Lemma py_int_reads n k : NoDup (map fst n) -> reads (M_Stats.py_int n k) (any_int_field n k) ValueErrorPy.
Proof.
  intros N. split.
  - intros z. unfold any_int_field, M_Stats.py_int. split.
    + destruct (yget n k) as [t|] eqn:E; [|discriminate]. destruct (undec t) as [y|] eqn:U; [|discriminate].
      intros [= <-]. exists t. split; [now apply (yget_In _ _ _ N)|exact U].
    + intros (t & I & U). apply (yget_In _ _ _ N) in I. now rewrite I, U.
  - unfold M_Stats.py_int. destruct (yget n k) as [t|]; [|auto]. destruct (undec t); eauto.
Qed.

Section R.
Context {D : Type} (read : string -> option D).

Lemma ydouble_reads n k : NoDup (map fst n) -> reads (ydouble read n k) (real_field read n k) YamlBadConversion.
Proof.
  intros N. split.
  - intros z. unfold real_field, ydouble. split.
    + destruct (yget n k) as [t|] eqn:E; [|discriminate]. destruct (read t) as [y|] eqn:U; [|discriminate].
      intros [= <-]. exists t. split; [now apply (yget_In _ _ _ N)|exact U].
    + intros (t & I & U). apply (yget_In _ _ _ N) in I. now rewrite I, U.
  - unfold ydouble. destruct (yget n k) as [t|]; [|auto]. destruct (read t); eauto.
Qed.

Lemma py_float_reads n k : NoDup (map fst n) -> reads (M_Stats.py_float read n k) (real_field read n k) ValueErrorPy.
Proof.
  intros N. split.
  - intros z. unfold real_field, M_Stats.py_float. split.
    + destruct (yget n k) as [t|] eqn:E; [|discriminate]. destruct (read t) as [y|] eqn:U; [|discriminate].
      intros [= <-]. exists t. split; [now apply (yget_In _ _ _ N)|exact U].
    + intros (t & I & U). apply (yget_In _ _ _ N) in I. now rewrite I, U.
  - unfold M_Stats.py_float. destruct (yget n k) as [t|]; [|auto]. destruct (read t); eauto.
Qed.

Lemma yaml_reads n : NoDup (map fst n) ->
  reads (read_summary_yaml read (Some n))
    (fun s => holds_summary read (int_field (-2147483648) 2147483647) (int_field 0 4294967295)
       (int_field (-9223372036854775808) 9223372036854775807) n (exchanged s)) YamlBadConversion.
Proof.
  intros N. eapply reads_ext.
  - unfold read_summary_yaml, yint32, yuint, ylong.
    repeat (apply reads_bind; [first [apply yint_reads | apply ydouble_reads]; exact N|intro]). apply reads_ok.
  - intros s. cbn beta. split.
    + intros H. repeat match goal with H : exists _, _ |- _ => destruct H as (? & ? & H) end. subst s. constructor; assumption.
    + intros []. destruct s. cbn in *. repeat (eexists; split; [eassumption|]). reflexivity.
Qed.

Lemma py_yaml_reads n : NoDup (map fst n) ->
  reads (py_from_yaml read (Some n)) (holds_summary read any_int_field any_int_field any_int_field n) ValueErrorPy.
Proof.
  intros N. eapply reads_ext.
  - unfold py_from_yaml.
    repeat (apply reads_bind; [first [apply py_int_reads | apply py_float_reads]; exact N|intro]). apply reads_ok.
  - intros s. cbn beta. split.
    + intros H. repeat match goal with H : exists _, _ |- _ => destruct H as (? & ? & H) end. subst s. constructor; assumption.
    + intros []. destruct s. cbn in *. repeat (eexists; split; [eassumption|]). reflexivity.
Qed.

(** ** Summary *)

Lemma sum_by_map (f : node_stats D -> Z) l : sum_by f l = fold_right Z.add 0 (map f l).
Proof. induction l as [|x l IH]; [reflexivity|]. cbn. rewrite <- IH. reflexivity. Qed.

Lemma u32_sum l : sum_uint l (u32 (fold_right Z.add 0 l)).
Proof.
  unfold sum_uint, u32. split; [apply Z.mod_pos_bound; lia|].
  exists (fold_right Z.add 0 l / 4294967296). pose proof (Z.div_mod (fold_right Z.add 0 l) 4294967296). lia.
Qed.

Lemma num_disjoint_uint (l : list (node_stats D)) : sum_uint (map ns_sec_disjoint l) (num_disjoint_secs l).
Proof. rewrite num_disjoint_sum, sum_by_map. apply u32_sum. Qed.
Lemma num_maxflow_uint (l : list (node_stats D)) : sum_uint (map ns_sec_maxflow l) (num_maxflow_secs l).
Proof. rewrite num_maxflow_sum, sum_by_map. apply u32_sum. Qed.
End R.

(** ** Results *)

Lemma foldM_throw {A B} (f : A -> B -> res A) e l : forall s, (forall s b, In b l -> f s b = Throw e \/ exists s', f s b = Ok s') ->
  (exists b, In b l /\ forall s, f s b = Throw e) -> foldM f l s = Throw e.
Proof.
  induction l as [|b l IH]; intros s H (x & I & HX); [destruct I|]. cbn.
  destruct (H s b (or_introl eq_refl)) as [-> | (s' & E)]; [reflexivity|]. rewrite E. cbn. apply IH.
  - intros. apply H. right. assumption.
  - destruct I as [-> | I]; [rewrite HX in E; discriminate|]. eauto.
Qed.

Lemma results_read st vials : (forall v, In v vials -> st (v_uuid v) <> BadFields) -> forall r,
  foldM (fun results v =>
    match read_result st (v_uuid v) with
    | Ok prize => Ok (results ++ [prize])
    | Throw FileNotFoundErrorPy | Throw JSONDecodeErrorPy => Ok results
    | Throw e => Throw e
    | UB u => UB u
    | OutOfFuel => OutOfFuel
    end) vials r = Ok (r ++ stored_prizes st vials).
Proof.
  induction vials as [|v vials IH]; intros H r; cbn; [now rewrite app_nil_r|].
  pose proof (H v (or_introl eq_refl)) as HV. unfold read_result.
  assert (H' : forall v, In v vials -> st (v_uuid v) <> BadFields) by (intros; apply H; right; assumption).
  destruct (st (v_uuid v)); cbn [bind]; try congruence; rewrite (IH H'); cbn; [reflexivity|reflexivity|now rewrite <- app_assoc].
Qed.

(** ** Python *)

Lemma py_remove_none l x : ~ In x l -> py_remove l x = Throw ValueErrorPy.
Proof.
  induction l as [|y l IH]; intros H; [reflexivity|]. cbn. destruct (Nat.eqb_spec x y) as [-> | NE].
  - exfalso. apply H. left. reflexivity.
  - rewrite IH; [reflexivity|]. intros I. apply H. right. exact I.
Qed.

Lemma dget_none {A} (d : list (nat * A)) k : ~ In k (map fst d) -> dget d k = None.
Proof.
  induction d as [|(k', a) d IH]; intros H; [reflexivity|]. cbn in *. destruct (Nat.eqb_spec k k') as [-> | NE]; [tauto|].
  apply IH. tauto.
Qed.
