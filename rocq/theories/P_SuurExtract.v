(** * P_SuurExtract: the two backward traversals of Suurballe's algorithm *)
From Coq Require Import Sorted.
From Verif Require Import Base P_Base M_Python M_PyCycle M_Suurballe Spec_Python Spec_Suurballe P_Python P_PyCycle P_Suurballe P_TreePath P_SuurLower.
Open Scope nat_scope.

Definition unmark (x : nat) (M : list nat) : list nat := filter (fun z => negb (Nat.eqb z x)) M.

Lemma unmark_In x M z : In z (unmark x M) <-> In z M /\ z <> x.
Proof. unfold unmark. rewrite filter_In, negb_true_iff, Nat.eqb_neq. tauto. Qed.

Lemma unmark_comm x y M : unmark x (unmark y M) = unmark y (unmark x M).
Proof.
  unfold unmark. induction M as [|a M IH]; [reflexivity|]. cbn.
  destruct (Nat.eqb a y) eqn:A; destruct (Nat.eqb a x) eqn:B; cbn; rewrite ?A, ?B; cbn; rewrite ?IH; reflexivity.
Qed.

Section Extract.
Variables (T : list (nat * nat)) (root : nat).
Notation anc := (descends T).
Notation reach := (descends T root).
Notation onp := (onpath T).
Hypothesis RT : rooted_tree T root.
Variables (cst : nat * nat -> Z) (rk : nat -> nat) (lab : nat -> Prop) (td : nat -> Z) (prd cau : nat -> nat).
Hypothesis CTREE : forall e, In e T -> cst e = 0%Z.
Hypothesis LREACH : forall x, lab x -> reach x.
Hypothesis TROOT : td root = 0%Z.
Hypothesis RKROOT : rk root = 0.
Hypothesis CAUSE : forall w, lab w -> w <> root ->
  lab (cau w) /\ ~ In (prd w, w) T /\ reach (prd w) /\ onp (cau w) (prd w) w /\
  (forall z, onp z (prd w) w -> rk (cau w) <= rk z) /\ rk (cau w) < rk w /\
  td w = (td (cau w) + cst (prd w, w))%Z.

(** A backward traversal; the edges are listed from the end. *)
Inductive bw : nat -> list nat -> list (nat * nat) -> list nat -> Prop :=
| bw_root : forall M, bw root M [] M
| bw_mark : forall x M es M', x <> root -> In x M -> bw (prd x) (unmark x M) es M' -> bw x M ((prd x, x) :: es) M'
| bw_tree : forall x p M es M', x <> root -> ~ In x M -> In (p, x) T -> bw p M es M' -> bw x M ((p, x) :: es) M'.

Lemma bw_incl x M es M' : bw x M es M' -> incl M' M.
Proof.
  induction 1 as [M|x M es M' NR I B IH|x p M es M' NR I TP B IH]; [apply incl_refl| |exact IH].
  intros z Z. apply IH in Z. apply unmark_In in Z. tauto.
Qed.

Lemma bw_extra x N es N' : bw x N es N' -> forall m M, N = unmark m M -> In m M -> (forall e, In e es -> snd e <> m) ->
  exists M', bw x M es M' /\ N' = unmark m M' /\ In m M'.
Proof.
  induction 1 as [N|x N es N' NR I B IH|x p N es N' NR I TP B IH]; intros m M E IM NH.
  - exists M. split; [constructor|]. auto.
  - assert (NX : x <> m) by (apply (NH (prd x, x)); left; reflexivity). subst N.
    destruct (IH m (unmark x M)) as (M' & B' & E' & I').
    + apply unmark_comm.
    + apply unmark_In. auto.
    + intros e J. apply NH. right. exact J.
    + exists M'. split; [|auto]. apply bw_mark; [exact NR| |exact B']. apply unmark_In in I. tauto.
  - assert (NX : x <> m) by (apply (NH (p, x)); left; reflexivity). subst N.
    destruct (IH m M eq_refl IM) as (M' & B' & E' & I'); [intros e J; apply NH; right; exact J|].
    exists M'. split; [|auto]. apply (bw_tree x p); [exact NR| |exact TP|exact B'].
    intros J. apply I. apply unmark_In. auto.
Qed.

(** Climbing the tree from [x] to its ancestor [a]. *)
Inductive climb : nat -> nat -> list (nat * nat) -> Prop :=
| climb_nil : forall a, climb a a []
| climb_step : forall x p a ce, In (p, x) T -> climb p a ce -> climb x a ((p, x) :: ce).

Lemma climb_ex a x : anc a x -> exists ce, climb x a ce.
Proof.
  induction 1 as [|p c A (ce & IH) I]; [exists []; constructor|]. exists ((p, c) :: ce). constructor; assumption.
Qed.

Lemma climb_anc x a ce : climb x a ce -> anc a x.
Proof. induction 1 as [|x p a ce I C IH]; [constructor|]. apply (desc_step _ _ _ _ IH I). Qed.

Lemma climb_heads x a ce : climb x a ce -> forall p h, In (p, h) ce -> In (p, h) T /\ anc h x /\ anc a h /\ h <> a.
Proof.
  induction 1 as [|x q a ce I C IH]; intros p h J; [destruct J|]. pose proof (climb_anc _ _ _ C) as AQ.
  destruct J as [J|J].
  - inversion J; subst. split; [exact I|]. split; [constructor|]. split; [apply (desc_step _ _ _ _ AQ I)|].
    intros ->. apply (child_not_anc T root RT p a); [apply (tree_reach T root RT p a I)|exact I|exact AQ].
  - destruct (IH p h J) as (A & B & D & E). split; [exact A|]. split; [apply (desc_step _ _ _ _ B I)|]. auto.
Qed.

Lemma climb_all x a ce : climb x a ce -> reach x -> forall p h, In (p, h) T -> anc h x -> anc a h -> h <> a -> In (p, h) ce.
Proof.
  induction 1 as [a|x q a ce I C IH]; intros RX p h J A B N.
  - destruct N. apply (anc_antisym T root RT); [apply (tree_reach T root RT p h J)|exact A|exact B].
  - destruct (anc_inv T root RT h q x I A) as [->|A'].
    + left. f_equal. apply (one_parent T root RT _ _ _ I J).
    + right. apply IH; auto. apply (tree_reach T root RT q x I).
Qed.

Lemma climb_NoDup x a ce : climb x a ce -> NoDup ce.
Proof.
  induction 1 as [|x q a ce I C IH]; [constructor|]. constructor; [|exact IH]. intros J.
  destruct (climb_heads _ _ _ C q x J) as (_ & A & _).
  apply (child_not_anc T root RT q x); [apply (tree_reach T root RT q x I)|exact I|exact A].
Qed.

Lemma climb_cost x a ce : climb x a ce -> zsum cst ce = 0%Z.
Proof. induction 1 as [|x q a ce I C IH]; [reflexivity|]. cbn. rewrite (CTREE _ I), IH. reflexivity. Qed.

Lemma not_root p h : In (p, h) T -> h <> root.
Proof. intros I ->. destruct RT as (_ & N & _). apply N. apply in_map_iff. exists (p, root). auto. Qed.

Lemma climb_bw x a ce M es M' : climb x a ce -> (forall p h, In (p, h) ce -> ~ In h M) -> bw a M es M' -> bw x M (ce ++ es) M'.
Proof.
  induction 1 as [a|x q a ce I C IH]; intros NM B; [exact B|]. cbn. apply (bw_tree x q).
  - apply (not_root q x I).
  - apply (NM q x). left. reflexivity.
  - exact I.
  - apply IH; [|exact B]. intros p h J. apply (NM p h). right. exact J.
Qed.

Lemma climb_bw_inv x a ce M es M' : climb x a ce -> (forall p h, In (p, h) ce -> ~ In h M) -> bw x M es M' ->
  exists es', es = ce ++ es' /\ bw a M es' M'.
Proof.
  intros C. revert es. induction C as [a|x q a ce I C IH]; intros es NM B; [exists es; auto|].
  inversion B; subst.
  - destruct (not_root q root I). reflexivity.
  - destruct (NM q x (or_introl eq_refl)). assumption.
  - assert (p = q) by (apply (one_parent T root RT _ _ _ H1 I)). subst p.
    destruct (IH es0) as (es' & -> & B'); [intros p h J; apply (NM p h); right; exact J|assumption|].
    exists es'. split; [reflexivity|exact B'].
Qed.

(** The vertices that are connected with [m] when [m] is labelled. *)
Definition K (m x : nat) : Prop := reach x /\ forall z, onp z x m -> rk m <= rk z.

Lemma K_self m : reach m -> K m m.
Proof.
  intros RM. split; [exact RM|]. intros z (O1 & O2). assert (Q : anc z m) by tauto.
  assert (z = m) by (apply (anc_antisym T root RT z m (anc_reach T root RT _ _ RM Q) Q); apply O2; constructor). subst. lia.
Qed.

Lemma K_sub m x h : reach m -> K m x -> onp h x m -> K m h.
Proof.
  intros RM (RX & H) ON. assert (RH : reach h) by (apply (onpath_reach T root RT h x m RX RM ON)).
  split; [exact RH|]. intros z Z. apply H. apply onpath_sym.
  apply (onpath_sub T root RT z h m x RM RX); [apply onpath_sym; exact ON|apply onpath_sym; exact Z].
Qed.

(** The vertices marked for [m]. *)
Inductive inch : nat -> nat -> Prop :=
| inch_self : forall m, m <> root -> inch m m
| inch_up : forall m x, m <> root -> inch (cau m) x -> inch m x.

Lemma inch_rk m x : inch m x -> lab m -> lab x /\ x <> root /\ (x = m \/ rk x < rk m).
Proof.
  induction 1 as [m N|m x N I IH]; intros L; [auto|]. destruct (CAUSE m L N) as (L' & _ & _ & _ & _ & R & _).
  destruct (IH L') as (A & B & D). split; [exact A|]. split; [exact B|]. right. destruct D as [->|D]; lia.
Qed.

(** What is known about the edge into [h] of a pair of traversals from [x] and [y]. *)
Definition cls (m x y p h : nat) : Prop :=
  (In (p, h) T /\ (anc h x \/ anc h y) /\ ~ anc h m) \/ h = m \/ (In (p, h) T /\ anc h x /\ anc h y).

Definition good (m : nat) : Prop := forall M, (forall x, In x M <-> inch m x) ->
  forall x y, K m x -> K m y -> onp m x y ->
  exists e1 M1 e2 M2, bw x M e1 M1 /\ bw y M1 e2 M2 /\ NoDup (e1 ++ e2) /\ zsum cst (e1 ++ e2) = td m /\
    forall p h, In (p, h) (e1 ++ e2) -> K m h -> cls m x y p h.

Lemma good_root : good root.
Proof.
  intros M HM x y (RX & _) (RY & _) (_ & ON).
  assert (E : M = []).
  { destruct M as [|a M]; [reflexivity|]. assert (I : inch root a) by (apply HM; left; reflexivity).
    inversion I; congruence. }
  subst M. destruct (climb_ex root x RX) as (c1 & C1). destruct (climb_ex root y RY) as (c2 & C2).
  exists c1, [], c2, []. split.
  { rewrite <- (app_nil_r c1). apply (climb_bw x root); [exact C1|auto|constructor]. }
  split. { rewrite <- (app_nil_r c2). apply (climb_bw y root); [exact C2|auto|constructor]. }
  split. { apply NoDup_app_iff. split; [apply (climb_NoDup _ _ _ C1)|]. split; [apply (climb_NoDup _ _ _ C2)|].
    intros (p, h) I J. destruct (climb_heads _ _ _ C1 p h I) as (A1 & A2 & _). destruct (climb_heads _ _ _ C2 p h J) as (_ & B2 & _).
    apply (not_root p h A1). apply (anc_root_inv T root RT). apply ON; assumption. }
  split. { rewrite zsum_app, (climb_cost _ _ _ C1), (climb_cost _ _ _ C2), TROOT. reflexivity. }
  intros p h I _. left. apply in_app_iff in I. destruct I as [I|I].
  - destruct (climb_heads _ _ _ C1 p h I) as (A1 & A2 & _). split; [exact A1|]. split; [auto|]. intros A. apply (not_root p h A1).
    apply (anc_root_inv T root RT). exact A.
  - destruct (climb_heads _ _ _ C2 p h I) as (A1 & A2 & _). split; [exact A1|]. split; [auto|]. intros A. apply (not_root p h A1).
    apply (anc_root_inv T root RT). exact A.
Qed.

(** The traversals from the predecessor of [m] and from [m] itself. *)
Lemma reference m : lab m -> m <> root -> good (cau m) -> forall x y, (x = prd m /\ y = m \/ x = m /\ y = prd m) ->
  forall M, (forall z, In z M <-> inch (cau m) z) ->
  exists e1 M1 e2 M2, bw x M e1 M1 /\ bw y M1 e2 M2 /\ NoDup (e1 ++ e2) /\ zsum cst (e1 ++ e2) = td (cau m) /\
    forall p h, In (p, h) (e1 ++ e2) -> K m h -> In (p, h) T /\ anc h m.
Proof.
  intros LM NR GC x y XY M HM. destruct (CAUSE m LM NR) as (LC & NT & RU & ON & MIN & RK & TD).
  set (u := prd m) in *. set (m' := cau m) in *. pose proof (LREACH m LM) as RM. pose proof (LREACH m' LC) as RM'.
  assert (KU : K m' u).
  { split; [exact RU|]. intros z Z. apply MIN. apply (onpath_sub T root RT z m' u m RU RM ON Z). }
  assert (KM : K m' m).
  { split; [exact RM|]. intros z Z. apply MIN. apply onpath_sym.
    apply (onpath_sub T root RT z m' m u RM RU); [apply onpath_sym; exact ON|exact Z]. }
  assert (XY' : K m' x /\ K m' y /\ onp m' x y).
  { destruct XY as [(-> & ->)|(-> & ->)]; [auto|]. split; [exact KM|]. split; [exact KU|apply onpath_sym; exact ON]. }
  destruct XY' as (KX & KY & OXY).
  destruct (GC M HM x y KX KY OXY) as (e1 & M1 & e2 & M2 & B1 & B2 & ND & Z & CL).
  exists e1, M1, e2, M2. split; [exact B1|]. split; [exact B2|]. split; [exact ND|]. split; [exact Z|].
  intros p h I KH.
  assert (NP : onp m' h m -> False). { intros O. destruct KH as (_ & KH). specialize (KH m' O). lia. }
  assert (KH' : K m' h).
  { destruct KH as (RH & KH). split; [exact RH|]. intros z Z'.
    destruct (onpath_tri T root RT z h m m' RH RM RM' Z') as [O|O].
    - specialize (KH z O). lia.
    - apply KM. exact O. }
  assert (X : In (p, h) T -> anc h u -> ~ anc h m' -> In (p, h) T /\ anc h m).
  { intros IT A N. split; [exact IT|]. destruct (anc_dec T root RT h m RM) as [Y|Y]; [exact Y|]. exfalso. apply NP.
    destruct ON as (O1 & O2). split.
    - destruct O1 as [O1|O1]; [|right; exact O1]. left. destruct (comparable T root RT _ _ _ O1 A) as [D|D]; [exact D|].
      contradiction.
    - intros a A1 A2. apply O2; [apply (anc_trans T a h u A1 A)|exact A2]. }
  destruct (CL p h I KH') as [(IT & A & N)|[E|(IT & A1 & A2)]].
  - destruct XY as [(Ex & Ey)|(Ex & Ey)]; rewrite Ex, Ey in A; destruct A as [A|A]; auto.
  - exfalso. subst h. apply NP. apply onpath_l.
  - split; [exact IT|]. destruct XY as [(Ex & Ey)|(Ex & Ey)]; subst; assumption.
Qed.

Section Step.
Variable m : nat.
Hypothesis LM : lab m.
Hypothesis NR : m <> root.
Hypothesis GC : good (cau m).
Variable M : list nat.
Hypothesis HM : forall x, In x M <-> inch m x.

Lemma HM' : forall z, In z (unmark m M) <-> inch (cau m) z.
Proof.
  intros z. rewrite unmark_In, HM. destruct (CAUSE m LM NR) as (LC & _ & _ & _ & _ & RK & _). split.
  - intros (I & N). inversion I; subst; [congruence|assumption].
  - intros I. split; [apply inch_up; assumption|]. intros ->. destruct (inch_rk _ _ I LC) as (_ & _ & [E|L]); [|lia].
    rewrite <- E in RK. lia.
Qed.

Lemma M_m : In m M.
Proof. apply HM. constructor. exact NR. Qed.

(** No vertex on the path between [x] and [m], except [m], is marked. *)
Lemma unmarked x h : K m x -> onp h x m -> In h M -> h = m.
Proof.
  intros (RX & KX) ON I. apply HM in I. destruct (inch_rk _ _ I LM) as (_ & _ & [E|L]); [exact E|]. specialize (KX h ON). lia.
Qed.

(** Climbing from [x] to the last common ancestor with [m]. *)
Lemma to_lca x : K m x -> exists a ce cm, climb x a ce /\ climb m a cm /\ (forall b, anc b x -> anc b m -> anc b a) /\
  (forall p h, In (p, h) ce -> In (p, h) T /\ anc h x /\ ~ anc h m /\ K m h /\ ~ In h M) /\
  (forall p h, In (p, h) cm -> ~ In h (unmark m M)).
Proof.
  intros KX. assert (KX' := KX). destruct KX' as (RX & _). pose proof (LREACH m LM) as RM.
  destruct (lca T root RT x m RX RM) as (a & A1 & A2 & A3).
  destruct (climb_ex a x A1) as (ce & CE). destruct (climb_ex a m A2) as (cm & CM).
  exists a, ce, cm. split; [exact CE|]. split; [exact CM|]. split; [exact A3|]. split.
  - intros p h I. destruct (climb_heads _ _ _ CE p h I) as (B1 & B2 & B3 & B4).
    assert (NA : ~ anc h m).
    { intros Q. apply B4. apply (anc_antisym T root RT h a); [apply (tree_reach T root RT p h B1)|apply A3; assumption|exact B3]. }
    assert (ON : onp h x m) by (apply (onpath_one T root RT); assumption).
    split; [exact B1|]. split; [exact B2|]. split; [exact NA|]. split; [apply (K_sub m x h RM KX ON)|].
    intros J. apply NA. rewrite (unmarked x h KX ON J). constructor.
  - intros p h I J. apply unmark_In in J. destruct J as (J & N). apply N. apply (unmarked x h KX); [|exact J].
    destruct (climb_heads _ _ _ CM p h I) as (B1 & B2 & B3 & B4). split; [right; exact B2|].
    intros b C1 C2. apply (anc_trans T b a h); [apply A3; assumption|exact B3].
Qed.

(** An edge of the reference traversals into a vertex connected with [m]. *)
Lemma ref_class x y a cm er es' p h : anc m x -> climb m a cm -> anc a y -> NoDup (er ++ cm ++ es') ->
  In (p, h) (er ++ es') -> In (p, h) T -> anc h m -> cls m x y p h.
Proof.
  intros MX CM AY ND I IT A. right. right. split; [exact IT|]. split; [apply (anc_trans T h m x A MX)|].
  pose proof (LREACH m LM) as RM. destruct (comparable T root RT _ _ _ A (climb_anc _ _ _ CM)) as [D|D].
  - apply (anc_trans T h a y D AY).
  - destruct (Nat.eq_dec h a) as [->|N]; [exact AY|]. exfalso.
    pose proof (climb_all _ _ _ CM RM p h IT A D N) as J. apply NoDup_app_iff in ND. destruct ND as (_ & ND & DJ).
    apply NoDup_app_iff in ND. destruct ND as (_ & _ & DJ'). apply in_app_iff in I. destruct I as [I|I].
    + apply (DJ (p, h) I). apply in_app_iff. left. exact J.
    + apply (DJ' (p, h) J I).
Qed.

(** The edges that are added before the reference traversals. *)
Lemma assemble x y cx cy er es' cm : onp m x y ->
  NoDup cx -> NoDup cy ->
  (forall p h, In (p, h) cx -> In (p, h) T /\ anc h x /\ ~ anc h m /\ K m h /\ ~ In h M) ->
  (forall p h, In (p, h) cy -> In (p, h) T /\ anc h y /\ ~ anc h m /\ K m h /\ ~ In h M) ->
  NoDup (er ++ cm ++ es') -> (forall p h, In (p, h) (er ++ cm ++ es') -> K m h -> In (p, h) T /\ anc h m) ->
  NoDup (cx ++ (prd m, m) :: er ++ cy ++ es').
Proof.
  intros (_ & ON) NX NY HX HY ND HR. pose proof (LREACH m LM) as RM. destruct (CAUSE m LM NR) as (_ & NT & _).
  assert (IN3 : forall e, In e er \/ In e es' -> In e (er ++ cm ++ es')) by (intros e; rewrite !in_app_iff; tauto).
  assert (HN : forall p h, ~ anc h m -> K m h -> In (p, h) er \/ In (p, h) es' -> False).
  { intros p h N KH I. apply N. apply (HR p h (IN3 _ I) KH). }
  assert (XY : forall e, In e cx -> In e cy -> False).
  { intros (p, h) I J. destruct (HX p h I) as (_ & A & N & _). destruct (HY p h J) as (_ & B & _). apply N. apply ON; assumption. }
  assert (HU : ~ In (prd m, m) cx /\ ~ In (prd m, m) cy /\ ~ In (prd m, m) er /\ ~ In (prd m, m) es').
  { split; [intros I; destruct (HX _ _ I); contradiction|]. split; [intros I; destruct (HY _ _ I); contradiction|].
    split; intros I; apply NT; apply (HR (prd m) m); [apply IN3; auto|apply K_self; exact RM|apply IN3; auto|apply K_self; exact RM]. }
  apply NoDup_app_iff in ND. destruct ND as (N1 & ND & D1). apply NoDup_app_iff in ND. destruct ND as (N2 & N3 & D2).
  apply NoDup_app_iff. split; [exact NX|]. split.
  - constructor; [rewrite !in_app_iff; tauto|]. apply NoDup_app_iff. split; [exact N1|]. split.
    + apply NoDup_app_iff. split; [exact NY|]. split; [exact N3|]. intros (p, h) I J.
      destruct (HY p h I) as (_ & _ & N & KH & _). apply (HN p h N KH). auto.
    + intros (p, h) I J. apply in_app_iff in J. destruct J as [J|J].
      * destruct (HY p h J) as (_ & _ & N & KH & _). apply (HN p h N KH). auto.
      * apply (D1 (p, h) I). apply in_app_iff. auto.
  - intros (p, h) I J. destruct J as [J|J]; [rewrite J in HU; tauto|]. destruct (HX p h I) as (_ & _ & N & KH & _).
    apply in_app_iff in J. destruct J as [J|J]; [apply (HN p h N KH); auto|]. apply in_app_iff in J.
    destruct J as [J|J]; [apply (XY _ I J)|apply (HN p h N KH); auto].
Qed.

(** The traversal from a descendant of [m] comes first. *)
Lemma desc_first x y : K m x -> K m y -> onp m x y -> anc m x ->
  exists e1 M1 e2 M2, bw x M e1 M1 /\ bw y M1 e2 M2 /\ NoDup (e1 ++ e2) /\ zsum cst (e1 ++ e2) = td m /\
    forall p h, In (p, h) (e1 ++ e2) -> K m h -> cls m x y p h.
Proof.
  intros KX KY ON MX. pose proof (LREACH m LM) as RM. destruct (CAUSE m LM NR) as (_ & _ & _ & _ & _ & _ & TD).
  destruct (to_lca x KX) as (a & cx & cmx & CX & CMX & LX & HX & _).
  assert (a = m). { apply (anc_antisym T root RT a m); [apply (anc_reach T root RT _ _ RM (climb_anc _ _ _ CMX))|apply (climb_anc _ _ _ CMX)|apply LX; [exact MX|constructor]]. }
  subst a. destruct (to_lca y KY) as (b & cy & cm & CY & CM & LY & HY & HMY).
  destruct (reference m LM NR GC (prd m) m (or_introl (conj eq_refl eq_refl)) (unmark m M) HM')
    as (er & M1 & em & M2 & B1 & B2 & ND & Z & CL).
  pose proof (bw_incl _ _ _ _ B1) as I1.
  destruct (climb_bw_inv m b cm M1 em M2 CM) as (es' & -> & B3); [intros p h I J; apply (HMY p h I); apply I1; exact J|exact B2|].
  exists (cx ++ (prd m, m) :: er), M1, (cy ++ es'), M2. split.
  { apply (climb_bw x m); [exact CX|intros p h I; apply (HX p h I)|]. apply bw_mark; [exact NR|apply M_m|exact B1]. }
  split. { apply (climb_bw y b); [exact CY| |exact B3]. intros p h I J. destruct (HY p h I) as (_ & _ & _ & _ & N). apply N.
    apply I1 in J. apply unmark_In in J. tauto. }
  rewrite <- app_assoc. cbn [app]. split.
  { eapply assemble with (x := x) (y := y) (cm := cm); eauto; [apply (climb_NoDup _ _ _ CX)|apply (climb_NoDup _ _ _ CY)]. }
  split.
  { rewrite !zsum_app in *. cbn [zsum]. rewrite !zsum_app in *. rewrite (climb_cost _ _ _ CX), (climb_cost _ _ _ CY).
    rewrite (climb_cost _ _ _ CM) in Z. lia. }
  intros p h I KH. apply in_app_iff in I. destruct I as [I|[I|I]].
  - left. destruct (HX p h I) as (A1 & A2 & A3 & _). auto.
  - inversion I; subst. right. left. reflexivity.
  - assert (J : In (p, h) cy \/ In (p, h) (er ++ es')) by (rewrite !in_app_iff in *; tauto). destruct J as [J|J].
    + left. destruct (HY p h J) as (A1 & A2 & A3 & _). auto.
    + destruct (CL p h) as (IT & A); [rewrite !in_app_iff in *; tauto|exact KH|].
      apply (ref_class x y b cm er es'); auto. apply (climb_anc _ _ _ CY).
Qed.

(** The traversal from a vertex that is not a descendant of [m] comes first. *)
Lemma other_first x y : K m x -> K m y -> onp m x y -> ~ anc m x ->
  exists e1 M1 e2 M2, bw x M e1 M1 /\ bw y M1 e2 M2 /\ NoDup (e1 ++ e2) /\ zsum cst (e1 ++ e2) = td m /\
    forall p h, In (p, h) (e1 ++ e2) -> K m h -> cls m x y p h.
Proof.
  intros KX KY ON MX. pose proof (LREACH m LM) as RM. destruct (CAUSE m LM NR) as (_ & _ & _ & _ & _ & _ & TD).
  assert (MY : anc m y) by (destruct (proj1 ON); [contradiction|assumption]).
  destruct (to_lca y KY) as (a & cy & cmy & CY & CMY & LY & HY & _).
  assert (a = m). { apply (anc_antisym T root RT a m); [apply (anc_reach T root RT _ _ RM (climb_anc _ _ _ CMY))|apply (climb_anc _ _ _ CMY)|apply LY; [exact MY|constructor]]. }
  subst a. destruct (to_lca x KX) as (b & cx & cm & CX & CM & LX & HX & HMX).
  assert (NB : b <> m) by (intros ->; apply MX; apply (climb_anc _ _ _ CX)).
  destruct (reference m LM NR GC m (prd m) (or_intror (conj eq_refl eq_refl)) (unmark m M) HM')
    as (em & M1 & er & M2 & B1 & B2 & ND & Z & CL).
  destruct (climb_bw_inv m b cm (unmark m M) em M1 CM) as (es' & -> & B3); [exact HMX|exact B1|].
  assert (NDm : NoDup (cm ++ es')) by (apply NoDup_app_iff in ND; tauto).
  assert (NH : forall e, In e es' -> snd e <> m).
  { intros (p, h) I E. cbn in E. subst h. destruct (CL p m) as (IT & _); [rewrite !in_app_iff; auto|apply K_self; exact RM|].
    apply NoDup_app_iff in NDm. destruct NDm as (_ & _ & D). apply (D (p, m)); [|exact I].
    apply (climb_all _ _ _ CM RM p m IT); [constructor|apply (climb_anc _ _ _ CM)|congruence]. }
  destruct (bw_extra b (unmark m M) es' M1 B3 m M eq_refl M_m NH) as (M1' & B4 & E1 & IM).
  pose proof (bw_incl _ _ _ _ B4) as I1.
  exists (cx ++ es'), M1', (cy ++ (prd m, m) :: er), M2. split.
  { apply (climb_bw x b); [exact CX|intros p h I; apply (HX p h I)|exact B4]. }
  split. { apply (climb_bw y m); [exact CY| |].
    - intros p h I J. destruct (HY p h I) as (_ & _ & _ & _ & N). apply N. apply I1. exact J.
    - apply bw_mark; [exact NR|exact IM|]. rewrite <- E1. exact B2. }
  assert (NDr : NoDup (er ++ cm ++ es')).
  { apply NoDup_app_iff in ND. destruct ND as (N1 & N2 & D). apply NoDup_app_iff. split; [exact N2|]. split; [exact N1|].
    intros e I J. apply (D e J I). }
  assert (ALL : NoDup (cy ++ (prd m, m) :: er ++ cx ++ es')).
  { apply (assemble y x cy cx er es' cm); auto; try (apply onpath_sym; exact ON); [apply (climb_NoDup _ _ _ CY)|apply (climb_NoDup _ _ _ CX)|].
    intros p h I. apply CL. rewrite !in_app_iff in *. tauto. }
  split.
  { replace (cy ++ (prd m, m) :: er ++ cx ++ es') with ((cy ++ (prd m, m) :: er) ++ cx ++ es') in ALL by (rewrite <- app_assoc; reflexivity).
    apply NoDup_app_iff in ALL. destruct ALL as (N1 & N2 & D). apply NoDup_app_iff. split; [exact N2|]. split; [exact N1|].
    intros e I J. apply (D e J I). }
  split.
  { rewrite !zsum_app in *. cbn [zsum]. rewrite (climb_cost _ _ _ CX), (climb_cost _ _ _ CY).
    rewrite (climb_cost _ _ _ CM) in Z. lia. }
  intros p h I KH.
  assert (SY : cls m y x p h -> cls m x y p h) by (unfold cls; tauto).
  assert (J : In (p, h) cx \/ In (p, h) cy \/ (p, h) = (prd m, m) \/ In (p, h) (er ++ es')).
  { rewrite !in_app_iff in *. cbn in I. destruct I as [[I|I]|[I|[I|I]]]; auto. }
  destruct J as [J|[J|[J|J]]].
  - left. destruct (HX p h J) as (A1 & A2 & A3 & _). auto.
  - left. destruct (HY p h J) as (A1 & A2 & A3 & _). auto.
  - inversion J; subst. right. left. reflexivity.
  - destruct (CL p h) as (IT & A); [rewrite !in_app_iff in *; tauto|exact KH|].
    apply SY. apply (ref_class y x b cm er es'); auto. apply (climb_anc _ _ _ CX).
Qed.
End Step.

Lemma good_all : forall n m, rk m < n -> lab m -> good m.
Proof.
  induction n as [|n IH]; intros m L LM; [lia|]. destruct (Nat.eq_dec m root) as [->|NR]; [apply good_root|].
  assert (GC : good (cau m)).
  { destruct (CAUSE m LM NR) as (LC & _ & _ & _ & _ & RK & _). apply IH; [lia|exact LC]. }
  intros M HM x y KX KY ON. destruct (anc_dec T root RT m x) as [A|A]; [apply KX| |].
  - apply (desc_first m LM NR GC M HM); assumption.
  - apply (other_first m LM NR GC M HM); assumption.
Qed.

(** The two traversals from [t]. *)
Lemma two_walks t M : lab t -> t <> root -> (forall x, In x M <-> inch t x) ->
  exists e1 M1 e2 M2, bw t M e1 M1 /\ bw t M1 e2 M2 /\ NoDup (e1 ++ e2) /\ zsum cst (e1 ++ e2) = td t.
Proof.
  intros LT NR HM. destruct (CAUSE t LT NR) as (LC & NT & _ & _ & _ & RK & TD).
  assert (GC : good (cau t)) by (apply (good_all (S (rk (cau t)))); [lia|exact LC]).
  destruct (reference t LT NR GC (prd t) t (or_introl (conj eq_refl eq_refl)) (unmark t M) (HM' t LT NR GC M HM))
    as (er & M1 & em & M2 & B1 & B2 & ND & Z & CL).
  exists ((prd t, t) :: er), M1, em, M2. split; [apply bw_mark; [exact NR|apply (M_m t NR M HM)|exact B1]|].
  split; [exact B2|]. cbn [app zsum]. split; [|lia].
  constructor; [|exact ND]. intros I. apply NT. apply (CL _ _ I). apply K_self. apply LREACH. exact LT.
Qed.

End Extract.
