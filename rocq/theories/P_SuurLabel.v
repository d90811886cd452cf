(** * P_SuurLabel: labelling one vertex in Suurballe's algorithm *)
From Coq Require Import Sorted.
From Verif Require Import Base P_Base M_Python M_PyCycle M_Suurballe Spec_Python Spec_Suurballe P_Python P_PyCycle P_Suurballe P_TreePath P_SuurState.
Open Scope nat_scope.

Section Label.
Variable TT : stree.
Notation T := (t_edges TT).
Notation root := (t_source TT).
Notation anc := (descends (t_edges TT)).
Notation reach := (descends (t_edges TT) (t_source TT)).
Notation onp := (onpath (t_edges TT)).
Hypothesis RT : rooted_tree T root.
Variables (pre post : nat -> Z).
Hypothesis PRE : forall v, reach v -> dget (t_pre TT) v = Some (pre v).
Hypothesis POST : forall v, reach v -> dget (t_post TT) v = Some (post v).
Hypothesis ANC : forall a d, reach a -> reach d -> (pre a <= pre d /\ post d <= post a)%Z <-> anc a d.
Hypothesis PINJ : forall a b, reach a -> reach b -> pre a = pre b -> a = b.
Hypothesis NODES : forall x, reach x -> In x (t_nodes TT).
Notation rep := (rep TT pre).
Notation procs := (procs TT pre).
Notation incident := (fun x (e : nat * nat) => fst e = x \/ snd e = x).

(** The vertices reached along the lists of children. *)
Inductive kreach (ch : list (nat * list nat)) (y : nat) : nat -> Prop :=
| kr_refl : kreach ch y y
| kr_step : forall x k c, kreach ch y x -> dget ch x = Some k -> In c k -> kreach ch y c.

Lemma traverse_ok (parent : bool) y v ch (P : nat * nat -> Prop) (Q : nat -> nat * nat -> Prop) :
  reach y ->
  (forall x, kreach ch y x -> exists k, dget ch x = Some k /\ NoDup k /\ forall c, In c k -> In (x, c) T) ->
  (forall x s R, kreach ch y x -> rep s R -> low s v -> exists s' R',
     (if parent then do l <- dfetch (s_inc s) x; scan_parent (length l) TT s x v 0 else scan TT s x y v) = Ok s' /\
     procs P v s R s' R' /\ rep s' R' /\ low s' v /\ forall e, In e R' -> incident x e -> Q x e) ->
  forall s R, rep s R -> low s v -> s_children s = ch ->
  exists s' R', traverse_subtree (S (length (t_nodes TT))) TT s [y] y v parent = Ok s' /\
    procs P v s R s' R' /\ rep s' R' /\ low s' v /\
    forall x e, kreach ch y x -> In e R' -> incident x e -> Q x e.
Proof.
  intros RY CH SC.
  assert (KT : forall x, kreach ch y x -> anc y x).
  { intros x K. induction K as [|x k c K IH D I]; [constructor|].
    destruct (CH x K) as (k' & D' & _ & J). assert (k' = k) by congruence. subst.
    eapply desc_step; [exact IH|]. apply J. exact I. }
  enough (X : forall fuel q D s R, S (length (t_nodes TT)) <= fuel + length D -> NoDup (D ++ q) ->
    (forall z, In z (D ++ q) -> kreach ch y z /\ (z = y \/ exists p, In p D /\ In (p, z) T)) ->
    (forall z k c, In z D -> dget ch z = Some k -> In c k -> In c (D ++ q)) -> In y (D ++ q) ->
    rep s R -> low s v -> s_children s = ch -> (forall x e, In x D -> In e R -> incident x e -> Q x e) ->
    exists s' R', traverse_subtree fuel TT s q y v parent = Ok s' /\
      procs P v s R s' R' /\ rep s' R' /\ low s' v /\
      forall x e, kreach ch y x -> In e R' -> incident x e -> Q x e).
  { intros s R RP LO E. apply (X _ [y] []); auto.
    - cbn. lia.
    - repeat constructor. intros [].
    - intros z [<-|[]]. split; [constructor|left; reflexivity].
    - intros z k c [].
    - cbn. auto.
    - intros x e []. }
  induction fuel as [|fuel IH]; intros q D s R LE ND HQ CL IY RP LO E HD.
  - destruct q as [|x q].
    + exists s, R. split; [reflexivity|]. split; [constructor|]. split; [exact RP|]. split; [exact LO|].
      intros x e K. apply HD. rewrite app_nil_r in *.
      induction K as [|x k c K IHK DG I]; [exact IY|]. eapply CL; eauto.
    + exfalso. assert (LL : length (D ++ x :: q) <= length (t_nodes TT)).
      { apply NoDup_incl_length; [exact ND|]. intros z I. apply NODES. destruct (HQ z I) as (K & _).
        eapply anc_trans; [exact RY|apply KT; exact K]. }
      rewrite app_length in LL. cbn in LL. lia.
  - destruct q as [|x q].
    + exists s, R. split; [reflexivity|]. split; [constructor|]. split; [exact RP|]. split; [exact LO|].
      intros x e K. apply HD. rewrite app_nil_r in *.
      induction K as [|x k c K IHK DG I]; [exact IY|]. eapply CL; eauto.
    + assert (IX : In x (D ++ x :: q)) by (apply in_app_iff; right; left; reflexivity).
      destruct (HQ x IX) as (KX & _). destruct (CH x KX) as (k & DK & NK & TK).
      cbn [traverse_subtree]. unfold dfetch at 1. rewrite E, DK. cbn [bind].
      destruct (SC x s R KX RP LO) as (s1 & R1 & E1 & PR1 & RP1 & LO1 & Q1).
      rewrite E1. cbn [bind].
      assert (E' : s_children s1 = ch) by (destruct (procs_frame _ _ _ _ _ _ _ _ PR1) as (_ & F & _); congruence).
      assert (NX : ~ In x D).
      { apply NoDup_remove_2 in ND. rewrite in_app_iff in ND. tauto. }
      assert (KN : forall c, In c k -> ~ In c (D ++ x :: q)).
      { intros c IC J. pose proof (TK c IC) as TC. destruct (HQ c J) as (KC & [->|(p & IP & TP)]).
        - assert (RX : reach x) by (eapply anc_trans; [exact RY|apply KT; exact KX]).
          apply (child_not_anc T root RT x y RX TC). apply KT. exact KX.
        - rewrite (one_parent T root RT _ _ _ TP TC) in IP. contradiction. }
      destruct (IH (q ++ k) (D ++ [x]) s1 R1) as (s2 & R2 & E2 & PR2 & RP2 & LO2 & Q2); auto.
      * rewrite app_length. cbn. lia.
      * rewrite <- app_assoc. cbn. replace (D ++ x :: q ++ k) with ((D ++ x :: q) ++ k) by (rewrite <- app_assoc; reflexivity).
        apply NoDup_app_iff. split; [exact ND|]. split; [exact NK|]. intros z I J. apply (KN z J I).
      * intros z I. assert (I' : In z (D ++ x :: q) \/ In z k).
        { rewrite !in_app_iff in *. cbn in *. tauto. }
        destruct I' as [I'|I'].
        -- destruct (HQ z I') as (KZ & [->|(p & IP & TP)]); [split; auto|]. split; [exact KZ|]. right. exists p.
           split; [apply in_app_iff; auto|exact TP].
        -- split; [eapply kr_step; eauto|]. right. exists x. split; [apply in_app_iff; right; left; reflexivity|auto].
      * intros z k' c I DG IC. apply in_app_iff in I. destruct I as [I|[<-|[]]].
        -- pose proof (CL z k' c I DG IC) as J. rewrite !in_app_iff in *. cbn in *. tauto.
        -- assert (k' = k) by congruence. subst. rewrite !in_app_iff. tauto.
      * rewrite !in_app_iff in *. cbn in *. tauto.
      * intros z e I J. apply in_app_iff in I. destruct I as [I|[<-|[]]]; [|auto].
        apply HD; [exact I|]. apply (procs_sub _ _ _ _ _ _ _ _ PR1). exact J.
      * exists s2, R2. split; [exact E2|]. split; [eapply procs_app; eauto|]. auto.
Qed.

(** ** Sequences of calls of process between which other fields change *)
Definition same_core (s s' : sst) : Prop :=
  s_td s' = s_td s /\ s_pred s' = s_pred s /\ s_cause s' = s_cause s /\ s_heap s' = s_heap s /\ s_inc s' = s_inc s.

Inductive runs (P : nat * nat -> Prop) (v : nat) : sst -> list (nat * nat) -> sst -> list (nat * nat) -> Prop :=
| runs_nil : forall s R, runs P v s R s R
| runs_procs : forall s R s1 R1 s2 R2, procs P v s R s1 R1 -> runs P v s1 R1 s2 R2 -> runs P v s R s2 R2
| runs_core : forall s s1 R s2 R2, same_core s s1 -> runs P v s1 R s2 R2 -> runs P v s R s2 R2.

Lemma runs_app P v s R s1 R1 s2 R2 : runs P v s R s1 R1 -> runs P v s1 R1 s2 R2 -> runs P v s R s2 R2.
Proof.
  induction 1 as [|s R s1 R1 s3 R3 D D' IH|s s1 R s3 R3 D D' IH]; intros Q; [exact Q| |].
  - eapply runs_procs; eauto.
  - eapply runs_core; eauto.
Qed.

Lemma core_rep s s1 R : same_core s s1 -> rep s R -> rep s1 R.
Proof.
  intros (E1 & E2 & E3 & E4 & E5) [A B D E]. constructor; auto.
  - intros x RX. rewrite E5. auto.
  - intros x RX. rewrite E1. auto.
Qed.

Lemma core_low s s1 v : same_core s s1 -> low s v -> low s1 v.
Proof. intros (E1 & _) (d & D & L). exists d. rewrite E1. auto. Qed.

Lemma runs_rep P v s R s1 R1 : runs P v s R s1 R1 -> rep s R -> rep s1 R1.
Proof.
  induction 1 as [|s R s1 R1 s3 R3 D D' IH|s s1 R s3 R3 D D' IH]; intros RP; [exact RP| |].
  - apply IH. eapply procs_rep; eauto.
  - apply IH. eapply core_rep; eauto.
Qed.

Lemma runs_sub P v s R s1 R1 : runs P v s R s1 R1 -> incl R1 R.
Proof.
  induction 1 as [|s R s1 R1 s3 R3 D D' IH|s s1 R s3 R3 D D' IH]; [apply incl_refl| |exact IH].
  eapply incl_tran; [exact IH|]. eapply procs_sub; eauto.
Qed.

(** ** The forest of unlabelled vertices *)
Record forest (s : sst) (ord : list nat) : Prop := mkForest {
  f_lab : forall x, reach x -> dget (s_lab s) x = Some (memb x ord);
  f_kids : forall x, reach x -> exists k, dget (s_children s) x = Some k /\ NoDup k /\
    forall c, In c k <-> In (x, c) T /\ ~ In x ord /\ ~ In c ord;
  f_par : forall x, reach x -> ~ In x ord -> exists o, dget (s_parent s) x = Some o /\
    forall p, o = Some p <-> In (p, x) T /\ ~ In p ord
}.

(** While the children of [v] are visited; [rest] are the children still to come. *)
Record mid (s : sst) (ord : list nat) (v : nat) (rest : list nat) : Prop := mkMid {
  m_lab : forall x, reach x -> dget (s_lab s) x = Some (memb x (ord ++ [v]));
  m_kids : forall x, reach x -> x <> v -> exists k, dget (s_children s) x = Some k /\ NoDup k /\
    forall c, In c k <-> In (x, c) T /\ ~ In x ord /\ ~ In c (ord ++ [v]);
  m_kv : dget (s_children s) v = Some rest;
  m_par : forall x, reach x -> ~ In x (ord ++ [v]) -> exists o, dget (s_parent s) x = Some o /\
    forall p, o = Some p <-> In (p, x) T /\ ~ In p ord /\ (p = v -> In x rest)
}.

Lemma mid_frame s s1 ord v rest : s_lab s1 = s_lab s -> s_children s1 = s_children s -> s_parent s1 = s_parent s ->
  mid s ord v rest -> mid s1 ord v rest.
Proof.
  intros E1 E2 E3 [A B D E]. constructor; auto.
  - rewrite E1. auto.
  - rewrite E2. auto.
  - rewrite E2. auto.
  - rewrite E3. auto.
Qed.

Lemma remove_child_ok w k : In w k -> NoDup k -> exists k', remove_child w k = Ok k' /\ NoDup k' /\
  (forall c, In c k' <-> In c k /\ c <> w) /\ (forall r, k = w :: r -> k' = r).
Proof.
  intros I N. induction k as [|x k IH]; [destruct I|]. inversion N; subst. cbn [remove_child].
  destruct (Nat.eqb_spec x w) as [->|NE].
  - exists k. split; [reflexivity|]. split; [assumption|]. split.
    + intros c. cbn. split; [intros J; split; [auto|intros ->; contradiction]|]. intros ([->|J] & H); [contradiction|exact J].
    + intros r E. inversion E. reflexivity.
  - destruct I as [I|I]; [contradiction|]. destruct (IH I) as (k' & E & N' & K & _); [assumption|].
    rewrite E. cbn [bind]. exists (x :: k'). split; [reflexivity|]. split.
    + constructor; [|exact N']. rewrite K. tauto.
    + split.
      * intros c. cbn. rewrite K. split; [|tauto]. intros [<-|J]; tauto.
      * intros r E'. inversion E'; subst. contradiction.
Qed.

(** The edges that labelling [v] may process. *)
Definition through (v : nat) (e : nat * nat) : Prop := onp v (fst e) (snd e).

Lemma through_other v x e : reach (fst e) -> reach (snd e) -> incident x e -> onp v x (other x e) -> through v e.
Proof.
  intros R1 R2 I H. unfold through, other in *. destruct (Nat.eqb_spec (fst e) x) as [E|N].
  - rewrite E. exact H.
  - destruct I as [I|I]; [contradiction|]. rewrite I. apply onpath_sym. exact H.
Qed.

(** What remains at the vertices of a visited subtree. *)
Definition done_below (ord : list nat) (v y : nat) (R : list (nat * nat)) : Prop :=
  forall x e, anc y x -> (forall z, anc y z -> anc z x -> ~ In z ord) ->
    In e R -> incident x e -> anc y (other x e).

Lemma kids_loop v ord : reach v -> ~ In v ord -> forall rest s R, rep s R -> low s v -> mid s ord v rest ->
  NoDup rest -> (forall c, In c rest -> In (v, c) T /\ ~ In c ord) ->
  exists s' R', foldM (fun st w =>
    let st1 := set_parent st w null_vertex in
    do ch <- dfetch (s_children st1) v;
    do ch' <- remove_child w ch;
    let st2 := set_children st1 v ch' in
    do lw <- dfetch (s_lab st2) w;
    if lw then Ok st2
    else traverse_subtree (S (length (t_nodes TT))) TT st2 [w] w v false) rest s = Ok s' /\
    runs (through v) v s R s' R' /\ rep s' R' /\ low s' v /\ mid s' ord v [] /\
    forall y, In y rest -> done_below ord v y R'.
Proof.
  intros RV NV. induction rest as [|w rest IH]; intros s R RP LO M ND HR.
  - exists s, R. split; [reflexivity|]. split; [constructor|]. split; [exact RP|]. split; [exact LO|]. split; [exact M|].
    intros y [].
  - cbn [foldM]. cbv zeta. inversion ND as [|? ? NW ND']; subst.
    destruct (HR w (or_introl eq_refl)) as (TW & OW).
    assert (RW : reach w) by (eapply desc_step; [exact RV|exact TW]).
    assert (WV : w <> v) by (intros ->; apply (child_not_anc T root RT v v RV TW); constructor).
    set (st1 := set_parent s w null_vertex).
    assert (K1 : dget (s_children st1) v = Some (w :: rest)) by (apply (m_kv _ _ _ _ M)).
    unfold dfetch at 1. rewrite K1. cbn [bind].
    destruct (remove_child_ok w (w :: rest)) as (ch' & E1 & _ & _ & E2); [left; reflexivity|exact ND|].
    specialize (E2 rest eq_refl). subst ch'. rewrite E1. cbn [bind].
    set (st2 := set_children st1 v rest).
    assert (L2 : dget (s_lab st2) w = Some false).
    { change (s_lab st2) with (s_lab s). rewrite (m_lab _ _ _ _ M w RW). f_equal. apply memb_not_In.
      rewrite in_app_iff. cbn. intuition. }
    unfold dfetch at 1. rewrite L2. cbn [bind].
    assert (CO : same_core s st2) by (repeat split).
    assert (M2 : mid st2 ord v rest).
    { constructor.
      - apply (m_lab _ _ _ _ M).
      - intros x RX NX. cbn. rewrite dget_dset. destruct (Nat.eqb_spec x v); [contradiction|]. apply (m_kids _ _ _ _ M x RX NX).
      - cbn. rewrite dget_dset, Nat.eqb_refl. reflexivity.
      - intros x RX NX. cbn. rewrite dget_dset. destruct (Nat.eqb_spec x w) as [->|NXW].
        + exists None. split; [reflexivity|]. intros p. split; [discriminate|]. intros (TP & _ & H).
          rewrite (one_parent T root RT _ _ _ TP TW) in H. destruct (NW (H eq_refl)).
        + destruct (m_par _ _ _ _ M x RX NX) as (o & O & K). exists o. split; [exact O|].
          intros p. rewrite K. cbn. split; intros (A & B & D); split; auto; split; auto.
          * intros E. destruct (D E) as [F|F]; [congruence|exact F]. }
    pose proof (core_rep _ _ _ CO RP) as RP2. pose proof (core_low _ _ _ CO LO) as LO2.
    assert (ANCT : forall x, kreach (s_children st2) w x -> anc w x /\ x <> v /\ ~ In x ord /\ reach x).
    { intros x K. induction K as [|x k c K (A1 & A2 & A3 & A4) DG I].
      - split; [constructor|]. auto.
      - destruct (m_kids _ _ _ _ M2 x A4 A2) as (k' & D' & _ & J). assert (k' = k) by congruence. subst.
        apply J in I. destruct I as (I1 & _ & I3). rewrite in_app_iff in I3. cbn in I3.
        split; [eapply desc_step; eauto|]. split; [intuition|]. split; [intuition|].
        eapply desc_step; eauto. }
    destruct (traverse_ok false w v (s_children st2) (through v) (fun x e => anc w (other x e))) with (s := st2) (R := R)
      as (s3 & R3 & E3 & PR3 & RP3 & LO3 & Q3); auto.
    { intros x K. destruct (ANCT x K) as (A1 & A2 & A3 & A4).
      destruct (m_kids _ _ _ _ M2 x A4 A2) as (k & D' & N' & J). exists k. split; [exact D'|]. split; [exact N'|].
      intros c I. apply J in I. tauto. }
    { intros x s0 R0 K RP0 LO0. destruct (ANCT x K) as (A1 & A2 & A3 & A4).
      destruct (scan_ok TT RT pre post PRE POST ANC PINJ x w v s0 R0 A4 RW RV RP0 LO0) as (s4 & R4 & E4 & PR4 & RP4 & LO4 & Q4).
      exists s4, R4. split; [exact E4|]. split; [|auto]. eapply procs_mono; [|exact PR4].
      intros e I (H1 & H2). destruct (r_ok _ _ _ _ RP0 e I) as (F1 & F2 & _).
      apply (through_other v x e F1 F2 H1).
      assert (VX : anc v x) by (eapply anc_trans; [apply anc_child; exact TW|exact A1]).
      split; [left; exact VX|]. intros a B1 B2.
      destruct (comparable T root RT _ _ _ A1 B1) as [D|D].
      - destruct H2. eapply anc_trans; [exact D|exact B2].
      - destruct (anc_inv T root RT a v w TW D) as [->|D']; [contradiction|exact D']. }
    rewrite E3. cbn [bind].
    destruct (procs_frame _ _ _ _ _ _ _ _ PR3) as (F1 & F2 & F3).
    destruct (IH s3 R3 RP3 LO3) as (s4 & R4 & E4 & RN4 & RP4 & LO4 & M4 & Q4); auto.
    { eapply mid_frame; [exact F1|exact F2|exact F3|exact M2]. }
    { intros c I. apply HR. right. exact I. }
    exists s4, R4. split; [exact E4|]. split.
    { eapply runs_core; [exact CO|]. eapply runs_procs; [exact PR3|exact RN4]. }
    split; [exact RP4|]. split; [exact LO4|]. split; [exact M4|].
    intros y [<-|I]; [|apply Q4; exact I].
    intros x e A FR IE INC. apply (Q3 x e); [|apply (runs_sub _ _ _ _ _ _ RN4); exact IE|exact INC].
    clear - A FR RT RW M2 OW WV RV TW. induction A as [|p c A IHA I]; [constructor|].
    assert (RPP : reach p) by (eapply anc_trans; eauto).
    assert (PV : p <> v) by (intros ->; apply (child_not_anc T root RT v w RV TW A)).
    destruct (m_kids _ _ _ _ M2 p RPP PV) as (k & D' & _ & J).
    eapply kr_step; [apply IHA| exact D'|].
    + intros z Z1 Z2. apply FR; [exact Z1|]. eapply desc_step; eauto.
    + apply J. split; [exact I|]. split.
      * apply FR; [exact A|]. apply anc_child. exact I.
      * rewrite in_app_iff. intros [H|[H|[]]].
        -- revert H. apply FR; [eapply desc_step; eauto|constructor].
        -- subst c. apply (child_not_anc T root RT v w RV TW). eapply desc_step; eauto.
Qed.

(** Labelling one vertex. *)
Lemma label_vertex_ok s0 R ord v : rep s0 R -> forest s0 ord -> reach v -> ~ In v ord -> low s0 v ->
  exists s' R', label_vertex TT s0 v = Ok s' /\ runs (through v) v s0 R s' R' /\ rep s' R' /\
    forest s' (ord ++ [v]) /\ forall y, In (v, y) T -> ~ In y ord -> done_below ord v y R'.
Proof.
  intros RP FO RV NV LO. unfold label_vertex. cbv zeta. set (s := set_label s0 v).
  assert (CO : same_core s0 s) by (repeat split).
  pose proof (core_rep _ _ _ CO RP) as RPs. pose proof (core_low _ _ _ CO LO) as LOs.
  destruct (r_inc _ _ _ _ RPs v RV) as (l & L & _). unfold dfetch at 1. rewrite L. cbn [bind].
  destruct (process_incident_ok TT pre post PRE POST ANC PINJ v RV (length l) s R 0 l RPs LOs L) as (s1 & R1 & E1 & PR1 & RP1); [lia|].
  rewrite E1. cbn [bind]. destruct (procs_frame _ _ _ _ _ _ _ _ PR1) as (F1 & F2 & F3).
  assert (LO1 : low s1 v) by (eapply procs_low; eauto).
  assert (PR1' : procs (through v) v s R s1 R1).
  { eapply procs_mono; [|exact PR1]. intros e I H. destruct (r_ok _ _ _ _ RPs e I) as (G1 & G2 & _).
    unfold through. destruct H as [<-|<-]; [apply onpath_l|apply onpath_r]. }
  destruct (f_par _ _ FO v RV NV) as (o & O & OP).
  assert (O1 : dget (s_parent s1) v = Some o) by (rewrite F3; exact O).
  unfold dfetch at 1. rewrite O1. cbn [bind].
  assert (LAB : forall x, reach x -> dget (s_lab s1) x = Some (memb x (ord ++ [v]))).
  { intros x RX. rewrite F1. cbn. rewrite dget_dset. destruct (Nat.eqb_spec x v) as [->|NX].
    - f_equal. symmetry. apply memb_In. apply in_app_iff. right. left. reflexivity.
    - rewrite (f_lab _ _ FO x RX). f_equal. destruct (memb x ord) eqn:ME; symmetry.
      + apply memb_In. apply in_app_iff. left. apply memb_In. exact ME.
      + apply memb_not_In. rewrite in_app_iff. cbn. apply memb_not_In in ME. intuition. }
  destruct (f_kids _ _ FO v RV) as (kv & KV & NKV & IKV).
  (* the parent side *)
  assert (X : exists s2 R2,
    match o with
    | None => Ok s1
    | Some p =>
      do lp <- dfetch (s_lab s1) p;
      if lp then Ok s1
      else
        do kids <- dfetch (s_children s1) p;
        do s2 <- (if memb v kids then do kids' <- remove_child v kids; Ok (set_children s1 p kids') else Ok s1);
        traverse_subtree (S (length (t_nodes TT))) TT s2 [p] p v true
    end = Ok s2 /\ runs (through v) v s1 R1 s2 R2 /\ rep s2 R2 /\ low s2 v /\ mid s2 ord v kv).
  { destruct o as [p|].
    - destruct (proj1 (OP p) eq_refl) as (TP & NP).
      assert (RP0 : reach p) by (apply (tree_reach T root RT _ _ TP)).
      assert (PV : p <> v) by (intros ->; apply (child_not_anc T root RT v v RV TP); constructor).
      unfold dfetch at 1. rewrite (LAB p RP0). cbn [bind].
      assert (MP : memb p (ord ++ [v]) = false) by (apply memb_not_In; rewrite in_app_iff; cbn; intuition).
      rewrite MP. destruct (f_kids _ _ FO p RP0) as (kp & KP & NKP & IKP).
      assert (KP1 : dget (s_children s1) p = Some kp) by (rewrite F2; exact KP).
      unfold dfetch at 1. rewrite KP1. cbn [bind].
      assert (MV : memb v kp = true) by (apply memb_In, IKP; auto). rewrite MV.
      apply memb_In in MV. destruct (remove_child_ok v kp MV NKP) as (k' & E' & N' & I' & _).
      rewrite E'. cbn [bind]. set (s2 := set_children s1 p k').
      assert (CO2 : same_core s1 s2) by (repeat split).
      assert (M2 : mid s2 ord v kv).
      { constructor.
        - exact LAB.
        - intros x RX NX. cbn. rewrite dget_dset. destruct (Nat.eqb_spec x p) as [->|NXP].
          + exists k'. split; [reflexivity|]. split; [exact N'|]. intros c. rewrite I', IKP, in_app_iff. cbn. intuition.
          + rewrite F2. destruct (f_kids _ _ FO x RX) as (k & K1 & K2 & K3). exists k. split; [exact K1|]. split; [exact K2|].
            intros c. rewrite K3, in_app_iff. cbn. split; [|intuition]. intros (A & B & D). split; [exact A|]. split; [exact B|].
            intros [H|[H|[]]]; [auto|]. subst c. apply NXP. apply (one_parent T root RT _ _ _ A TP).
        - cbn. rewrite dget_dset. destruct (Nat.eqb_spec v p); [congruence|]. rewrite F2. exact KV.
        - intros x RX NX. change (s_parent s2) with (s_parent s1). rewrite F3.
          rewrite in_app_iff in NX. cbn in NX. destruct (f_par _ _ FO x RX) as (o' & O' & K'); [tauto|].
          exists o'. split; [exact O'|]. intros q. rewrite K'. split; [|tauto]. intros (A & B). split; [exact A|]. split; [exact B|].
          intros ->. apply IKV. tauto. }
      assert (ANCT : forall x, kreach (s_children s2) p x -> anc p x /\ ~ anc v x /\ reach x).
      { intros x K. induction K as [|x k c K (A1 & A2 & A3) DG I].
        - split; [constructor|]. split; [|exact RP0]. intros H. apply (child_not_anc T root RT p v RP0 TP H).
        - assert (NX : x <> v) by (intros ->; apply A2; constructor).
          destruct (m_kids _ _ _ _ M2 x A3 NX) as (k0 & D' & _ & J). assert (k0 = k) by congruence. subst k0.
          apply J in I. destruct I as (I1 & _ & I3).
          split; [eapply desc_step; eauto|]. split; [|eapply desc_step; eauto].
          intros H. destruct (anc_inv T root RT v x c I1 H) as [->|H']; [|contradiction].
          apply I3. apply in_app_iff. right. left. reflexivity. }
      destruct (traverse_ok true p v (s_children s2) (through v) (fun x e => True)) with (s := s2) (R := R1)
        as (s3 & R3 & E3 & PR3 & RP3 & LO3 & _); auto.
      { intros x K. destruct (ANCT x K) as (A1 & A2 & A3).
        assert (NX : x <> v) by (intros ->; apply A2; constructor).
        destruct (m_kids _ _ _ _ M2 x A3 NX) as (k & D' & N2 & J). exists k. split; [exact D'|]. split; [exact N2|].
        intros c I. apply J in I. tauto. }
      { intros x s4 R4 K RP4 LO4. destruct (ANCT x K) as (A1 & A2 & A3).
        destruct (r_inc _ _ _ _ RP4 x A3) as (lx & LX & _). unfold dfetch at 1. rewrite LX. cbn [bind].
        destruct (scan_parent_ok TT pre post PRE POST ANC PINJ x v A3 RV (length lx) s4 R4 0 lx RP4 LO4 LX) as (s5 & R5 & E5 & PR5 & RP5); [lia|].
        exists s5, R5. split; [exact E5|]. split.
        - eapply procs_mono; [|exact PR5]. intros e I (H1 & H2). destruct (r_ok _ _ _ _ RP4 e I) as (G1 & G2 & _).
          apply (through_other v x e G1 G2 H1). apply onpath_sym. apply (onpath_one T root RT); auto.
        - split; [exact RP5|]. split; [eapply procs_low; eauto|]. auto. }
      { eapply core_rep; eauto. }
      exists s3, R3. split; [exact E3|]. split.
      + eapply runs_core; [exact CO2|]. eapply runs_procs; [exact PR3|]. constructor.
      + split; [exact RP3|]. split; [exact LO3|]. destruct (procs_frame _ _ _ _ _ _ _ _ PR3) as (G1 & G2 & G3).
        eapply mid_frame; eauto.
    - exists s1, R1. split; [reflexivity|]. split; [constructor|]. split; [exact RP1|]. split; [exact LO1|].
      constructor.
      + exact LAB.
      + intros x RX NX. rewrite F2. destruct (f_kids _ _ FO x RX) as (k & K1 & K2 & K3). exists k. split; [exact K1|]. split; [exact K2|].
        intros c. rewrite K3, in_app_iff. cbn. split; [|intuition]. intros (A & B & D). split; [exact A|]. split; [exact B|].
        intros [H|[H|[]]]; [auto|]. subst c. assert (Y : @None nat = Some x) by (apply OP; auto). discriminate.
      + rewrite F2. exact KV.
      + intros x RX NX. rewrite F3. rewrite in_app_iff in NX. cbn in NX. destruct (f_par _ _ FO x RX) as (o' & O' & K'); [tauto|].
        exists o'. split; [exact O'|]. intros q. rewrite K'. split; [|tauto]. intros (A & B). split; [exact A|]. split; [exact B|].
        intros ->. apply IKV. tauto. }
  destruct X as (s2 & R2 & E2 & RN2 & RP2 & LO2 & M2). rewrite E2. cbn [bind].
  unfold dfetch at 1. rewrite (m_kv _ _ _ _ M2). cbn [bind].
  destruct (kids_loop v ord RV NV kv s2 R2 RP2 LO2 M2 NKV) as (s3 & R3 & E3 & RN3 & RP3 & LO3 & M3 & Q3).
  { intros c I. apply IKV in I. tauto. }
  exists s3, R3. split; [exact E3|]. split.
  { eapply runs_core; [exact CO|]. eapply runs_procs; [exact PR1'|]. eapply runs_app; eauto. }
  split; [exact RP3|]. split.
  - constructor.
    + apply (m_lab _ _ _ _ M3).
    + intros x RX. destruct (Nat.eq_dec x v) as [->|NX].
      * exists []. split; [apply (m_kv _ _ _ _ M3)|]. split; [constructor|]. intros c. split; [intros []|].
        intros (_ & H & _). destruct H. apply in_app_iff. right. left. reflexivity.
      * destruct (m_kids _ _ _ _ M3 x RX NX) as (k & K1 & K2 & K3). exists k. split; [exact K1|]. split; [exact K2|].
        intros c. rewrite K3, !in_app_iff. cbn. intuition.
    + intros x RX NX. destruct (m_par _ _ _ _ M3 x RX NX) as (o' & O' & K'). exists o'. split; [exact O'|].
      intros q. rewrite K', in_app_iff. cbn. intuition.
  - intros y TY NY. apply Q3. apply IKV. auto.
Qed.

End Label.
