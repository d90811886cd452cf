(** * P_TreePath: paths between the vertices of a rooted tree *)
From Verif Require Import Base P_Base M_Python M_PyCycle M_Suurballe Spec_Python Spec_Suurballe P_Python P_PyCycle P_Suurballe.
Open Scope nat_scope.

Section Paths.
Variables (T : nxtree) (root : nat).
Hypothesis RT : rooted_tree T root.

Notation anc := (descends T).
Notation reach := (descends T root).

Lemma anc_inv a p c : In (p, c) T -> anc a c -> a = c \/ anc a p.
Proof.
  intros I D. inversion D as [|p' c' D' I' E]; subst; [auto|]. right.
  rewrite (one_parent T root RT _ _ _ I I'). exact D'.
Qed.

Lemma anc_child p c : In (p, c) T -> anc p c.
Proof. intros I. eapply desc_step; [constructor|exact I]. Qed.

Lemma anc_root_inv a : anc a root -> a = root.
Proof. intros D. inversion D as [|p c D' I]; subst; [reflexivity|]. destruct (no_root_parent T root RT p I). Qed.

Lemma anc_trans a b c : anc a b -> anc b c -> anc a c.
Proof. apply path_trans. Qed.

Lemma anc_antisym a b : reach a -> anc a b -> anc b a -> a = b.
Proof.
  intros R P Q. destruct (root_level T root a R) as (n & L).
  destruct (path_level T root a b n P L) as (m & M & LB & [E|E]); [exact E|].
  destruct (path_level T root b a m Q LB) as (k & K & LA & _).
  pose proof (level_unique T root RT _ _ L _ LA). lia.
Qed.

Lemma anc_reach a x : reach x -> anc a x -> reach a.
Proof.
  intros R D. destruct (comparable T root RT _ _ _ R D) as [H|H]; [exact H|].
  rewrite (anc_root_inv _ H). constructor.
Qed.

Lemma child_not_anc p c : reach p -> In (p, c) T -> ~ anc c p.
Proof.
  intros R I D. pose proof (anc_antisym p c R (anc_child _ _ I) D) as E. subst c.
  destruct (root_level T root p R) as (n & L).
  assert (L' : level T root p (S n)) by (econstructor; eauto).
  pose proof (level_unique T root RT _ _ L _ L'). lia.
Qed.

Lemma anc_dec a x : reach x -> anc a x \/ ~ anc a x.
Proof.
  intros R. induction R as [|p c R IH I].
  - destruct (Nat.eq_dec a root) as [->|N]; [left; constructor|].
    right. intros D. apply N. apply anc_root_inv. exact D.
  - destruct (Nat.eq_dec a c) as [->|N]; [left; constructor|].
    destruct IH as [D|D]; [left; eapply desc_step; eauto|].
    right. intros D'. destruct (anc_inv _ _ _ I D') as [E|E]; contradiction.
Qed.

(** The child below [v] on the way to a proper descendant. *)
Lemma child_towards v x : anc v x -> v = x \/ exists y, In (v, y) T /\ anc y x.
Proof.
  intros D. induction D as [|p c D IH I]; [auto|]. right. destruct IH as [<-|(y & J & Q)].
  - exists c. split; [exact I|constructor].
  - exists y. split; [exact J|]. eapply desc_step; eauto.
Qed.

Lemma lca x y : reach x -> reach y ->
  exists m, anc m x /\ anc m y /\ forall a, anc a x -> anc a y -> anc a m.
Proof.
  intros R RY. induction R as [|p c R IH I].
  - exists root. split; [constructor|]. split; [exact RY|]. auto.
  - destruct (anc_dec c y RY) as [D|D].
    + exists c. split; [constructor|]. split; auto.
    + destruct IH as (m & M1 & M2 & M3). exists m. split; [apply (desc_step _ _ _ _ M1 I)|]. split; [exact M2|].
      intros a A1 A2. destruct (anc_inv _ _ _ I A1) as [->|E]; [contradiction|auto].
Qed.

(** [z] is on the path of the tree between [x] and [y]. *)
Definition onpath (z x y : nat) : Prop :=
  (anc z x \/ anc z y) /\ forall a, anc a x -> anc a y -> anc a z.

Lemma onpath_sym z x y : onpath z x y -> onpath z y x.
Proof. intros (H & K). split; [tauto|auto]. Qed.

Lemma onpath_l x y : onpath x x y.
Proof. split; [left; constructor|auto]. Qed.

Lemma onpath_r x y : onpath y x y.
Proof. split; [right; constructor|auto]. Qed.

(** Ancestors of exactly one of two vertices are on the path between them. *)
Lemma onpath_one z x y : anc z x -> ~ anc z y -> onpath z x y.
Proof.
  intros A N. split; [auto|]. intros a A1 A2.
  destruct (comparable T root RT _ _ _ A A1) as [H|H]; [|exact H].
  destruct N. eapply anc_trans; eauto.
Qed.

Lemma onpath_tri z x y v : reach x -> reach y -> reach v ->
  onpath z x v -> onpath z x y \/ onpath z y v.
Proof.
  intros RX RY RV (H & K).
  destruct (anc_dec z y RY) as [Y|Y].
  - destruct (anc_dec z x RX) as [X|X].
    + destruct (anc_dec z v RV) as [V|V]; [|right; apply onpath_one; auto].
      destruct (lca x y RX RY) as (m & M1 & M2 & M3). destruct (lca y v RY RV) as (n & N1 & N2 & N3).
      destruct (comparable T root RT _ _ _ M2 N1) as [C|C].
      * left. split; [auto|]. intros a A1 A2. apply anc_trans with m; [apply M3; auto|].
        apply K; [exact M1|]. eapply anc_trans; eauto.
      * right. split; [auto|]. intros a A1 A2. apply anc_trans with n; [apply N3; auto|].
        apply K; [|exact N2]. eapply anc_trans; eauto.
    + left. apply onpath_sym, onpath_one; auto.
  - destruct H as [X|V].
    + left. apply onpath_one; auto.
    + right. apply onpath_sym, onpath_one; auto.
Qed.

Lemma onpath_reach z x y : reach x -> reach y -> onpath z x y -> reach z.
Proof. intros RX RY ([H|H] & _); [exact (anc_reach _ _ RX H)|exact (anc_reach _ _ RY H)]. Qed.

(** The path of a tree edge has only its end points. *)
Lemma onpath_edge z p c : In (p, c) T -> onpath z p c -> z = p \/ z = c.
Proof.
  intros I (H & K). assert (P : anc p z) by (apply K; [constructor|apply anc_child; auto]).
  assert (R : reach p) by (destruct RT as (_ & _ & R); eauto).
  destruct H as [H|H].
  - left. symmetry. apply anc_antisym; auto.
  - destruct (anc_inv _ _ _ I H) as [->|E]; [auto|]. left. symmetry. apply anc_antisym; auto.
Qed.

Lemma tree_reach p c : In (p, c) T -> reach p /\ reach c.
Proof.
  intros I. assert (R : reach p) by (destruct RT as (_ & _ & R); eauto).
  split; [exact R|]. eapply desc_step; eauto.
Qed.

(** Leaving the path towards [v] along a tree edge only adds vertices to the path. *)
Lemma onpath_off z p c v : In (p, c) T -> reach v -> ~ anc c v -> onpath z p v -> onpath z c v.
Proof.
  intros I RV N H. destruct (tree_reach _ _ I) as (RP & RC).
  destruct (onpath_tri z p c v RP RC RV H) as [E|E]; [|exact E].
  destruct (onpath_edge _ _ _ I E) as [->| ->]; [|apply onpath_l].
  split; [left; apply anc_child; auto|]. intros a A1 A2.
  destruct (anc_inv _ _ _ I A1) as [->|D]; [contradiction|exact D].
Qed.

Lemma onpath_on z p c v : In (p, c) T -> reach v -> anc c v -> onpath z c v -> onpath z p v.
Proof.
  intros I RV A H. destruct (tree_reach _ _ I) as (RP & RC).
  destruct (onpath_tri z c p v RC RP RV H) as [E|E]; [|exact E].
  destruct (onpath_edge _ _ _ I (onpath_sym _ _ _ E)) as [->| ->]; [apply onpath_l|].
  split; [right; auto|]. intros a A1 A2. eapply anc_trans; [exact A1|apply anc_child; auto].
Qed.

(** Being on the way between [x] and an ancestor. *)
Lemma onpath_anc z a x : anc a x -> onpath z x a <-> anc z x /\ anc a z.
Proof.
  intros A. split.
  - intros (H & K). split; [|apply K; [exact A|constructor]].
    destruct H as [H|H]; [exact H|eapply anc_trans; eauto].
  - intros (H & K). split; [auto|]. intros b B1 B2. exact (anc_trans _ _ _ B2 K).
Qed.

(** Sub-paths. *)
Lemma onpath_sub z m x y : reach x -> reach y -> onpath m x y -> onpath z x m -> onpath z x y.
Proof.
  intros RX RY M Z. assert (RM : reach m) by exact (onpath_reach _ _ _ RX RY M).
  destruct M as (H & K), Z as (H' & K').
  destruct (anc_dec z x RX) as [ZX|ZX].
  - split; [auto|]. intros a A1 A2. apply K'; auto.
  - destruct H' as [|ZM]; [contradiction|]. destruct H as [MX|MY].
    + destruct ZX. exact (anc_trans _ _ _ ZM MX).
    + apply onpath_sym. apply onpath_one; [exact (anc_trans _ _ _ ZM MY)|exact ZX].
Qed.

(** ** Decision procedures *)
Definition ancb (a x : nat) : bool := memb x (pres T (S (length T)) a).

Lemma ancb_ok a x : reach a -> ancb a x = true <-> anc a x.
Proof.
  intros R. destruct (root_level T root a R) as (n & L). unfold ancb. rewrite memb_In.
  apply (pres_In T). apply (level_fits T root RT _ _ n L). lia.
Qed.

Definition onpathb (z x y : nat) : bool :=
  (ancb z x || ancb z y) &&
  forallb (fun a => negb (ancb a x && ancb a y) || ancb a z) (pres T (S (length T)) root).

Lemma reach_In x : In x (pres T (S (length T)) root) <-> reach x.
Proof. apply (pres_In T). apply (level_fits T root RT _ _ 0 (lv_root T root)). lia. Qed.

Lemma onpathb_ok z x y : reach z -> reach x -> reach y -> onpathb z x y = true <-> onpath z x y.
Proof.
  intros RZ RX RY. unfold onpathb, onpath. rewrite andb_true_iff, orb_true_iff, !ancb_ok by auto.
  rewrite forallb_forall. split; intros (H & K); split; auto.
  - intros a A1 A2. assert (RA : reach a) by (exact (anc_reach _ _ RX A1)).
    specialize (K a (proj2 (reach_In a) RA)). apply orb_true_iff in K. rewrite ancb_ok in K by auto.
    destruct K as [K|K]; [|exact K]. apply negb_true_iff, andb_false_iff in K.
    destruct K as [K|K]; exfalso.
    + apply (ancb_ok a x RA) in A1. congruence.
    + apply (ancb_ok a y RA) in A2. congruence.
  - intros a I. apply reach_In in I. apply orb_true_iff. rewrite ancb_ok by auto.
    destruct (ancb a x) eqn:E1; [|left; reflexivity]. destruct (ancb a y) eqn:E2; [|left; reflexivity].
    right. apply ancb_ok in E1, E2; auto.
Qed.

Lemma onpath_dec z x y : reach x -> reach y -> onpath z x y \/ ~ onpath z x y.
Proof.
  intros RX RY. destruct (anc_dec z x RX) as [A|A].
  - destruct (onpathb z x y) eqn:E.
    + left. apply onpathb_ok; auto. exact (anc_reach _ _ RX A).
    + right. intros H. apply onpathb_ok in H; auto; [congruence|]. exact (anc_reach _ _ RX A).
  - destruct (anc_dec z y RY) as [B|B].
    + left. apply onpath_sym, onpath_one; auto.
    + right. intros ([H|H] & _); auto.
Qed.

End Paths.
