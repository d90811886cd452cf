(** * P_CheckILP: boolean checkers for the predicates of Spec_Cycle and Spec_ILP *)
From Coq Require Import Permutation.
From Verif Require Import Base Graph Spec Spec_Cycle M_Solution M_ILP Spec_ILP P_Base P_Check P_ILP.
Open Scope nat_scope.

Definition pairb (p q : nat * nat) : bool :=
  (Nat.eqb (fst p) (fst q) && Nat.eqb (snd p) (snd q)) ||
  (Nat.eqb (fst p) (snd q) && Nat.eqb (snd p) (fst q)).

Fixpoint no_parb (es : list (nat * nat)) : bool :=
  match es with [] => true | p :: t => forallb (fun q => negb (pairb p q)) t && no_parb t end.

Lemma pairb_joins g e f u v : joins g e u v -> joins g f u v ->
  exists p q, nth_error (ge g) e = Some p /\ nth_error (ge g) f = Some q /\ pairb p q = true.
Proof.
  unfold joins, pairb. intros He Hf. destruct He as [He|He], Hf as [Hf|Hf];
    eexists; eexists; (split; [exact He|]); (split; [exact Hf|]); cbn [fst snd];
    rewrite !Nat.eqb_refl; cbn [andb orb]; auto using orb_true_r.
Qed.

Lemma no_parb_nth es : no_parb es = true -> forall e f p q, e < f ->
  nth_error es e = Some p -> nth_error es f = Some q -> pairb p q = false.
Proof.
  induction es as [|x es IH]; intros H e f p q Hlt He Hf; [destruct e; discriminate|].
  cbn [no_parb] in H. apply andb_true_iff in H as [H1 H2].
  destruct f as [|f]; [lia|]. cbn in Hf. destruct e as [|e].
  - cbn in He. inversion He; subst. rewrite forallb_forall in H1.
    apply nth_error_In in Hf. apply H1 in Hf. now apply negb_true_iff in Hf.
  - cbn in He. apply (IH H2 e f); auto. lia.
Qed.

Lemma no_parb_spec g : no_parb (ge g) = true -> no_parallel g.
Proof.
  intros H e f u v He Hf.
  destruct (Nat.lt_trichotomy e f) as [Hlt|[->|Hlt]]; auto; exfalso.
  - destruct (pairb_joins g e f u v He Hf) as (p & q & H1 & H2 & H3).
    rewrite (no_parb_nth _ H e f p q Hlt H1 H2) in H3. discriminate.
  - destruct (pairb_joins g f e u v Hf He) as (p & q & H1 & H2 & H3).
    rewrite (no_parb_nth _ H f e p q Hlt H1 H2) in H3. discriminate.
Qed.

Lemma loop_freeb_spec g : forallb (fun p => negb (Nat.eqb (fst p) (snd p))) (ge g) = true -> loop_free g.
Proof.
  intros H v [e He]. rewrite forallb_forall in H.
  assert (Hn : nth_error (ge g) e = Some (v, v)) by (destruct He; auto).
  apply nth_error_In in Hn. apply H in Hn. cbn in Hn. rewrite Nat.eqb_refl in Hn. discriminate.
Qed.

Lemma all_loopsb_spec g : forallb (fun v => edgeb g v v) (seq 0 (gn g)) = true -> all_loops g.
Proof.
  intros H v Hv. rewrite forallb_forall in H. apply edgeb_spec, H, in_seq. lia.
Qed.

Definition rowb (s : sol) (r : lin) : bool :=
  match l_lhs r with None => true | Some a => (a * s_den s <=? lin_value (s_num s) (l_terms r))%Z end &&
  match l_rhs r with None => true | Some b => (lin_value (s_num s) (l_terms r) <=? b * s_den s)%Z end.

Lemma rowb_spec s r : rowb s r = true <-> row_sat s r.
Proof.
  unfold rowb, row_sat. rewrite andb_true_iff. split.
  - intros [H1 H2]. split.
    + intros a E. rewrite E in H1. now apply Z.leb_le.
    + intros b E. rewrite E in H2. now apply Z.leb_le.
  - intros [H1 H2]. split.
    + destruct (l_lhs r); auto. apply Z.leb_le. auto.
    + destruct (l_rhs r); auto. apply Z.leb_le. auto.
Qed.

Lemma rowsb_spec s rows : forallb (rowb s) rows = true <-> Forall (row_sat s) rows.
Proof.
  rewrite forallb_forall, Forall_forall. split; intros H r Hr; apply rowb_spec; auto.
Qed.

Definition binaryb (g : graph) (s : sol) : bool :=
  (0 <? s_den s)%Z &&
  forallb (fun e => (s_num s e =? 0)%Z || (s_num s e =? s_den s)%Z) (seq 0 (length (ge g))).

Lemma binaryb_spec g s : binaryb g s = true -> binary g s.
Proof.
  unfold binaryb. rewrite andb_true_iff, forallb_forall. intros [H1 H2]. split.
  - now apply Z.ltb_lt.
  - intros e He. specialize (H2 e ltac:(apply in_seq; lia)). apply orb_true_iff in H2 as [H|H];
      apply Z.eqb_eq in H; auto.
Qed.

Definition joinb (g : graph) (e u v : nat) : bool :=
  match nth_error (ge g) e with None => false | Some p => pairb p (u, v) end.

Lemma joinb_spec g e u v : joinb g e u v = true <-> joins g e u v.
Proof.
  unfold joinb, joins, pairb. destruct (nth_error (ge g) e) as [[a b]|]; cbn [fst snd].
  - rewrite orb_true_iff, !andb_true_iff, !Nat.eqb_eq. split.
    + intros [[-> ->]|[-> ->]]; auto.
    + intros [H|H]; inversion H; auto.
  - split; [discriminate|]. intros [H|H]; discriminate.
Qed.

Fixpoint trailb (g : graph) (t es : list nat) : bool :=
  match t, es with
  | [_], [] => true
  | u :: t', e :: es' =>
      match t' with [] => false | v :: _ => joinb g e u v && trailb g t' es' end
  | _, _ => false
  end.

Lemma trailb_spec g es : forall t, trailb g t es = true -> trail g t es.
Proof.
  induction es as [|e es IH]; intros [|u [|v t]] H; try discriminate H.
  - constructor.
  - cbn [trailb] in H. apply andb_true_iff in H as [H1 H2]. constructor; auto.
    now apply joinb_spec.
Qed.

Definition incidenceb (g : graph) (t es : list nat) (s : sol) : bool :=
  binaryb g s && trailb g t es &&
  forallb (fun e => Bool.eqb (s_num s e =? s_den s)%Z
                      (memb e es || existsb (fun v => joinb g e v v) t)) (seq 0 (length (ge g))).

Lemma incidenceb_spec g t es s : incidenceb g t es s = true -> incidence g t s.
Proof.
  unfold incidenceb. rewrite !andb_true_iff, forallb_forall. intros [[H1 H2] H3]. split.
  - now apply binaryb_spec.
  - exists es. split; [now apply trailb_spec|]. intros e He.
    specialize (H3 e ltac:(apply in_seq; lia)). apply Bool.eqb_prop in H3.
    rewrite <- Z.eqb_eq, H3, orb_true_iff, memb_In, existsb_exists. split.
    + intros [H|(v & Hv & Hj)]; auto. right. exists v. split; auto. now apply joinb_spec.
    + intros [H|(v & Hv & Hj)]; auto. right. exists v. split; auto. now apply joinb_spec.
Qed.

Ltac check2 :=
  match goal with
  | |- no_parallel _ => apply no_parb_spec; vm_compute; reflexivity
  | |- loop_free _ => apply loop_freeb_spec; vm_compute; reflexivity
  | |- all_loops _ => apply all_loopsb_spec; vm_compute; reflexivity
  | |- Forall (row_sat _) _ => apply rowsb_spec; vm_compute; reflexivity
  | |- ~ Forall (row_sat _) _ => rewrite <- rowsb_spec; vm_compute; discriminate
  | |- row_sat _ _ => apply rowb_spec; vm_compute; reflexivity
  | |- ~ row_sat _ _ => rewrite <- rowb_spec; vm_compute; discriminate
  | |- binary _ _ => apply binaryb_spec; vm_compute; reflexivity
  | |- trail _ _ _ => apply trailb_spec; vm_compute; reflexivity
  | _ => check1
  end.
Ltac checkI := repeat (match goal with |- _ /\ _ => split end); try check2.
