(** * P_SuurLower: no pair of disjoint walks is cheaper than the tentative distance *)
From Coq Require Import Sorted.
From Verif Require Import Base P_Base M_Python M_PyCycle M_Suurballe Spec_Python Spec_Suurballe P_Python P_PyCycle P_Suurballe P_TreePath P_SuurLoop.
Open Scope nat_scope.

Fixpoint zsum {A} (f : A -> Z) (l : list A) : Z := match l with [] => 0%Z | a :: r => (f a + zsum f r)%Z end.

Lemma zsum_app {A} (f : A -> Z) l l' : zsum f (l ++ l') = (zsum f l + zsum f l')%Z.
Proof. induction l as [|a l IH]; cbn; [reflexivity|]. rewrite IH. lia. Qed.

Lemma zsum_nonneg {A} (f : A -> Z) l : (forall a, In a l -> (0 <= f a)%Z) -> (0 <= zsum f l)%Z.
Proof.
  induction l as [|a l IH]; intros H; cbn; [lia|]. pose proof (H a (or_introl eq_refl)).
  assert (0 <= zsum f l)%Z by (apply IH; intros b I; apply H; right; exact I). lia.
Qed.

Lemma zsum_ext {A} (f g : A -> Z) l : (forall a, In a l -> f a = g a) -> zsum f l = zsum g l.
Proof.
  induction l as [|a l IH]; intros H; cbn; [reflexivity|]. rewrite (H a) by (left; reflexivity). rewrite IH; [reflexivity|].
  intros b I. apply H. right. exact I.
Qed.

Lemma zsum_sub {A} (f : A -> Z) es : (forall a, (0 <= f a)%Z) -> NoDup es ->
  forall L, (forall e, In e es -> f e <> 0%Z -> In e L) -> (zsum f es <= zsum f L)%Z.
Proof.
  intros NN. induction es as [|e es IH]; intros ND L H; cbn; [apply zsum_nonneg; auto|].
  inversion ND; subst. destruct (Z.eq_dec (f e) 0) as [E|N].
  - rewrite E. apply IH; [assumption|]. intros x I. apply H. right. exact I.
  - destruct (in_split _ _ (H e (or_introl eq_refl) N)) as (l1 & l2 & ->).
    assert (X : (zsum f es <= zsum f (l1 ++ l2))%Z).
    { apply IH; [assumption|]. intros x I NX. specialize (H x (or_intror I) NX). rewrite in_app_iff in *. cbn in H.
      destruct H as [H|[H|H]]; [auto| |auto]. subst. contradiction. }
    rewrite zsum_app in *. cbn. lia.
Qed.

Section Lower.
Variables (T : list (nat * nat)) (root : nat) (G' : list (nat * list (nat * Z))) (R0 : list (nat * nat)).
Notation anc := (descends T).
Notation reach := (descends T root).
Notation onp := (onpath T).
Hypothesis RT : rooted_tree T root.
Hypothesis TARC : forall u w c, arc G' u w c -> In (u, w) T -> c = 0%Z.
Hypothesis ARCS : forall u w c, arc G' u w c -> In (u, w) T \/ In (u, w) R0.
Hypothesis R0ok : forall u w, In (u, w) R0 -> reach u /\ reach w.
Variables (ord : list nat) (td : nat -> Z) (big : Z).
Hypothesis OREACH : forall x, In x ord -> reach x.
Hypothesis OROOT : In root ord.
Hypothesis TROOT : td root = 0%Z.
Hypothesis TPOS : forall x, reach x -> (0 <= td x <= big)%Z.
Hypothesis TBIG : forall x, reach x -> ~ In x ord -> td x = big.
Hypothesis SORT : StronglySorted (fun x y => (td x <= td y)%Z) ord.
Hypothesis CNN : forall u w c, In (u, w) R0 -> arc G' u w c -> (0 <= c)%Z.
Hypothesis DONE : forall u w c m, In (u, w) R0 -> arc G' u w c -> first ord (fun z => onp z u w) m -> (td w <= td m + c)%Z.

Variable t : nat.
Hypothesis RTt : reach t.

Definition pot (x : nat) : Z := fold_right Z.min (td t) (map td (filter (fun q => onpathb T root q x t) ord)).

Lemma fold_min l b : (forall a, In a l -> (fold_right Z.min b l <= a)%Z) /\ (fold_right Z.min b l <= b)%Z /\
  (fold_right Z.min b l = b \/ In (fold_right Z.min b l) l).
Proof.
  induction l as [|a l (A & B & D)]; cbn.
  - split; [intros a []|]. split; [lia|auto].
  - split; [|split; [lia|]].
    + intros x [<-|I]; [lia|]. specialize (A x I). lia.
    + destruct (Z.min_spec a (fold_right Z.min b l)) as [(_ & ->)|(_ & ->)]; [auto|]. destruct D; auto.
Qed.

Lemma pot_t x : (pot x <= td t)%Z.
Proof. apply fold_min. Qed.

Lemma pot_q x q : reach x -> In q ord -> onp q x t -> (pot x <= td q)%Z.
Proof.
  intros RX I ON. apply fold_min. apply in_map. apply filter_In. split; [exact I|].
  apply (onpathb_ok T root RT); auto.
Qed.

Lemma pot_is x : reach x -> pot x = td t \/ exists q, In q ord /\ onp q x t /\ pot x = td q.
Proof.
  intros RX. destruct (fold_min (map td (filter (fun q => onpathb T root q x t) ord)) (td t)) as (_ & _ & [E|I]); [left; exact E|].
  right. apply in_map_iff in I. destruct I as (q & E & I). apply filter_In in I. destruct I as (I & ON).
  exists q. split; [exact I|]. split; [|symmetry; exact E]. apply (onpathb_ok T root RT) in ON; auto.
Qed.

Lemma pot_td y : reach y -> (pot y <= td y)%Z.
Proof.
  intros RY. destruct (in_dec Nat.eq_dec y ord) as [I|N].
  - apply pot_q; [exact RY|exact I|apply onpath_l].
  - rewrite (TBIG y RY N). pose proof (pot_t y). pose proof (TPOS t RTt). lia.
Qed.

Lemma pot_root : pot root = 0%Z.
Proof.
  assert (A : (pot root <= 0)%Z) by (rewrite <- TROOT; apply pot_td; constructor).
  destruct (pot_is root) as [E|(q & I & _ & E)]; [constructor| |].
  - pose proof (TPOS t RTt). lia.
  - pose proof (TPOS q (OREACH q I)). lia.
Qed.

Lemma pot_target : pot t = td t.
Proof.
  destruct (pot_is t RTt) as [E|(q & I & ON & E)]; [exact E|]. rewrite E. f_equal.
  destruct ON as (O1 & O2). assert (Q : anc q t) by tauto. apply (anc_antisym T root RT q t); [apply OREACH; exact I|exact Q|].
  apply O2; constructor.
Qed.

Lemma pot_tree_off p c : In (p, c) T -> ~ anc c t -> (pot c <= pot p)%Z.
Proof.
  intros I N. destruct (tree_reach T root RT p c I) as (RP & RC).
  destruct (pot_is p RP) as [E|(q & J & ON & E)]; rewrite E; [apply pot_t|].
  apply pot_q; [exact RC|exact J|]. apply (onpath_off T root RT q p c t I RTt N ON).
Qed.

Lemma pot_tree_on p c : In (p, c) T -> anc c t -> (pot p <= pot c)%Z.
Proof.
  intros I N. destruct (tree_reach T root RT p c I) as (RP & RC).
  destruct (pot_is c RC) as [E|(q & J & ON & E)]; rewrite E; [apply pot_t|].
  apply pot_q; [exact RP|exact J|]. apply (onpath_on T root RT q p c t I RTt N ON).
Qed.

Lemma first_ex (P : nat -> Prop) : (forall z, In z ord -> P z \/ ~ P z) -> forall q, In q ord -> P q ->
  exists m, first ord P m /\ (td m <= td q)%Z.
Proof.
  clear - SORT. induction ord as [|a l IH]; intros DEC q I H; [destruct I|]. apply StronglySorted_inv in SORT. destruct SORT as (S & F).
  destruct (DEC a (or_introl eq_refl)) as [Y|N].
  - exists a. split; [exists [], l; split; [reflexivity|split; [exact Y|intros z []]]|].
    destruct I as [<-|I]; [lia|]. rewrite Forall_forall in F. apply F. exact I.
  - destruct I as [<-|I]; [contradiction|]. destruct (IH S) with (q := q) as (m & (l1 & l2 & -> & M1 & M2) & L); auto.
    { intros z J. apply DEC. right. exact J. }
    exists m. split; [|exact L]. exists (a :: l1), l2. split; [reflexivity|]. split; [exact M1|].
    intros z [<-|J]; [exact N|apply M2; exact J].
Qed.

Lemma pot_other x y c : In (x, y) R0 -> arc G' x y c -> (pot y <= pot x + c)%Z.
Proof.
  intros I A. destruct (R0ok x y I) as (RX & RY). pose proof (CNN x y c I A) as NN.
  destruct (pot_is x RX) as [E|(q & J & ON & E)]; rewrite E; [pose proof (pot_t y); lia|].
  destruct (onpath_tri T root RT q x y t RX RY RTt ON) as [H|H].
  - destruct (first_ex (fun z => onp z x y)) with (q := q) as (m & F & L); auto.
    { intros z Z. apply (onpath_dec T root RT); auto. }
    pose proof (DONE x y c m I A F). pose proof (pot_td y RY). lia.
  - pose proof (pot_q y q RY J H). lia.
Qed.

(** What an edge may gain: only the edges of the tree path to [t] gain anything. *)
Definition gain (e : nat * nat) : Z :=
  if andb (M_Suurballe.has_edge T (fst e) (snd e)) (ancb T (snd e) t) then (pot (snd e) - pot (fst e))%Z else 0%Z.

Lemma gain_on p c : In (p, c) T -> anc c t -> gain (p, c) = (pot c - pot p)%Z.
Proof.
  intros I A. unfold gain. cbn [fst snd]. rewrite (proj2 (P_SuurState.has_edge_ok T p c) I).
  rewrite (proj2 (ancb_ok T root RT c t (proj2 (tree_reach T root RT p c I))) A). reflexivity.
Qed.

Lemma gain_zero e : gain e <> 0%Z -> In e T /\ anc (snd e) t.
Proof.
  intros N. destruct e as (p, c). unfold gain in N. cbn [fst snd] in *.
  destruct (has_edge T p c) eqn:H; cbn [andb] in N; [|congruence].
  apply P_SuurState.has_edge_ok in H. split; [exact H|].
  destruct (ancb T c t) eqn:A; [|congruence]. apply (ancb_ok T root RT) in A; [exact A|].
  apply (tree_reach T root RT p c H).
Qed.

Lemma gain_nonneg e : (0 <= gain e)%Z.
Proof.
  destruct (Z.eq_dec (gain e) 0) as [E|N]; [lia|]. destruct (gain_zero e N) as (I & A). destruct e as (p, c). cbn in A.
  rewrite (gain_on p c I A). pose proof (pot_tree_on p c I A). lia.
Qed.

Lemma arc_gain u w c : arc G' u w c -> (pot w - pot u <= c + gain (u, w))%Z.
Proof.
  intros A. pose proof (gain_nonneg (u, w)) as G. destruct (ARCS u w c A) as [I|I].
  - rewrite (TARC u w c A I). destruct (anc_dec T root RT w t RTt) as [H|H].
    + rewrite (gain_on u w I H). lia.
    + pose proof (pot_tree_off u w I H). lia.
  - pose proof (pot_other u w c I A). lia.
Qed.

Lemma walk_gain u v p z : dwalk G' u v p z -> (pot v - pot u <= z + zsum gain (walk_edges p))%Z.
Proof.
  induction 1 as [u|u x v p w z A W IH]; [cbn; lia|].
  assert (E : walk_edges (u :: p) = (u, x) :: walk_edges p) by (inversion W; reflexivity).
  rewrite E. cbn [zsum]. pose proof (arc_gain u x w A). lia.
Qed.

Lemma path_sum x : reach x -> anc x t -> exists L, (forall p c, In (p, c) T -> anc c x -> In (p, c) L) /\
  zsum gain L = (pot x - pot root)%Z.
Proof.
  induction 1 as [|p c RP IH I]; intros A.
  - exists []. split; [|cbn; lia]. intros p c J H. apply (anc_root_inv T root RT) in H. subst.
    destruct RT as (_ & N & _). apply N. apply in_map_iff. exists (p, root). auto.
  - destruct IH as (L & K & S). { apply (anc_trans T p c t); [apply anc_child; exact I|exact A]. }
    exists ((p, c) :: L). split.
    + intros q d J H. destruct (anc_inv T root RT d p c I H) as [->|H'].
      * left. f_equal. apply (one_parent T root RT _ _ _ I J).
      * right. apply K; assumption.
    + cbn [zsum]. rewrite S, (gain_on p c I A). lia.
Qed.

(** The bound. *)
Lemma lower_bound p q z : disjoint_pair G' root t p q z -> (td t <= z)%Z.
Proof.
  intros (DJ & N1 & N2 & z1 & z2 & W1 & W2 & ->).
  pose proof (walk_gain _ _ _ _ W1) as G1. pose proof (walk_gain _ _ _ _ W2) as G2. rewrite pot_root, pot_target in *.
  destruct (path_sum t RTt) as (L & K & S); [constructor|]. rewrite pot_root, pot_target in S.
  assert (X : (zsum gain (walk_edges p ++ walk_edges q) <= zsum gain L)%Z).
  { apply zsum_sub; [apply gain_nonneg| |].
    - apply NoDup_app_iff. split; [exact N1|]. split; [exact N2|]. intros e I J. apply (DJ e I J).
    - intros (u, w) _ N. destruct (gain_zero _ N) as (I & A). apply K; assumption. }
  rewrite zsum_app in X. lia.
Qed.

End Lower.
