(** * P_SuurState: what process, the scans and the traversals do to the state *)
From Coq Require Import Sorted.
From Verif Require Import Base P_Base M_Python M_PyCycle M_Suurballe Spec_Python Spec_Suurballe P_Python P_PyCycle P_Suurballe P_TreePath.
Open Scope nat_scope.

Definition eqe (e f : nat * nat) : bool := andb (Nat.eqb (fst e) (fst f)) (Nat.eqb (snd e) (snd f)).
Definition rem (e : nat * nat) (l : list (nat * nat)) : list (nat * nat) := filter (fun f => negb (eqe f e)) l.
Definition other (x : nat) (e : nat * nat) : nat := if Nat.eqb (fst e) x then snd e else fst e.

Lemma eqe_ok e f : eqe e f = true <-> e = f.
Proof.
  destruct e as (a & b), f as (c & d). unfold eqe. cbn. rewrite andb_true_iff, !Nat.eqb_eq. split.
  - intros (-> & ->). reflexivity.
  - intros E. inversion E. auto.
Qed.

Lemma rem_In e l f : In f (rem e l) <-> In f l /\ f <> e.
Proof.
  unfold rem. rewrite filter_In, negb_true_iff. split; intros (I & H); split; auto.
  - intros ->. rewrite (proj2 (eqe_ok e e) eq_refl) in H. discriminate.
  - destruct (eqe f e) eqn:E; [|reflexivity]. apply eqe_ok in E. contradiction.
Qed.

Lemma rem_notin e l : ~ In e l -> rem e l = l.
Proof.
  induction l as [|f l IH]; intros N; [reflexivity|]. cbn. cbn in N.
  destruct (eqe f e) eqn:E; cbn.
  - apply eqe_ok in E. subst. tauto.
  - unfold rem in IH. rewrite IH by tauto. reflexivity.
Qed.

Lemma rem_NoDup e l : NoDup l -> NoDup (rem e l).
Proof. apply NoDup_filter. Qed.

Lemma rem_head e l : NoDup (e :: l) -> rem e (e :: l) = l.
Proof.
  intros N. inversion N; subst. cbn. rewrite (proj2 (eqe_ok e e) eq_refl). cbn.
  apply rem_notin. assumption.
Qed.

Lemma rem_last e l : NoDup (l ++ [e]) -> rem e (l ++ [e]) = l.
Proof.
  intros N. apply NoDup_app_iff in N. destruct N as (_ & _ & N).
  unfold rem. rewrite filter_app. cbn. rewrite (proj2 (eqe_ok e e) eq_refl). cbn. rewrite app_nil_r.
  apply rem_notin. intros I. apply (N e I). cbn. auto.
Qed.

Lemma rem_length e l : NoDup l -> In e l -> S (length (rem e l)) = length l.
Proof.
  intros N. induction l as [|f l IH]; intros I; [destruct I|]. inversion N; subst.
  destruct I as [->|I].
  - rewrite rem_head by exact N. reflexivity.
  - cbn. destruct (eqe f e) eqn:E.
    + apply eqe_ok in E. subst. contradiction.
    + cbn. f_equal. apply IH; auto.
Qed.

Lemma remove_edge_ok e l : In e l -> NoDup l -> remove_edge e l = Ok (rem e l).
Proof.
  intros I N. induction l as [|f l IH]; [destruct I|]. cbn [remove_edge].
  change (andb (Nat.eqb (fst f) (fst e)) (Nat.eqb (snd f) (snd e))) with (eqe f e).
  destruct (eqe f e) eqn:E.
  - apply eqe_ok in E. subst. rewrite rem_head by exact N. reflexivity.
  - inversion N; subst. assert (I' : In e l).
    { destruct I as [->|I]; [rewrite (proj2 (eqe_ok e e) eq_refl) in E; discriminate|exact I]. }
    rewrite IH by auto. cbn. rewrite E. reflexivity.
Qed.

Lemma has_edge_ok T u w : has_edge T u w = true <-> In (u, w) T.
Proof.
  unfold has_edge. rewrite existsb_exists. split.
  - intros ((a & b) & I & E). apply (eqe_ok (a, b) (u, w)) in E. congruence.
  - intros I. exists (u, w). split; [exact I|]. apply (eqe_ok (u, w) (u, w)). reflexivity.
Qed.

Lemma SS_filter {A} (R : A -> A -> Prop) f l : StronglySorted R l -> StronglySorted R (filter f l).
Proof.
  induction 1 as [|a l S IH F]; cbn; [constructor|]. destruct (f a); [|exact IH].
  constructor; [exact IH|]. rewrite Forall_forall in *. intros x I. apply filter_In in I. apply F. tauto.
Qed.

Section State.
Variable TT : stree.
Notation T := (t_edges TT).
Notation root := (t_source TT).
Notation anc := (descends (t_edges TT)).
Notation reach := (descends (t_edges TT) (t_source TT)).
Hypothesis RT : rooted_tree T root.
Variables (pre post : nat -> Z).
Hypothesis PRE : forall v, reach v -> dget (t_pre TT) v = Some (pre v).
Hypothesis POST : forall v, reach v -> dget (t_post TT) v = Some (post v).
Hypothesis ANC : forall a d, reach a -> reach d -> (pre a <= pre d /\ post d <= post a)%Z <-> anc a d.
Hypothesis PINJ : forall a b, reach a -> reach b -> pre a = pre b -> a = b.

Lemma is_anc_ok a d : reach a -> reach d -> exists b, is_ancestor (t_pre TT) (t_post TT) a d = Ok b /\ (b = true <-> anc a d).
Proof.
  intros RA RD. unfold is_ancestor, dfetch. rewrite (PRE a RA), (PRE d RD), (POST a RA), (POST d RD). cbn [bind].
  destruct (Z.leb_spec (pre a) (pre d)).
  - eexists. split; [reflexivity|]. rewrite Z.geb_leb, Z.leb_le, <- ANC by auto. lia.
  - exists false. split; [reflexivity|]. rewrite <- ANC by auto. split; [discriminate|lia].
Qed.

(** The vertices of a subtree are consecutive in preorder. *)
Lemma block y a b c : reach y -> reach b -> anc y a -> anc y c -> reach a -> reach c ->
  (pre a <= pre b)%Z -> (pre b <= pre c)%Z -> anc y b.
Proof.
  intros RY RB YA YC RA RC AB BC.
  pose proof (proj2 (ANC y a RY RA) YA). pose proof (proj2 (ANC y c RY RC) YC).
  destruct (Z.le_gt_cases (post b) (post y)) as [L|L]; [apply ANC; auto; lia|].
  assert (BCA : anc b c) by (apply ANC; auto; lia).
  destruct (comparable T root RT _ _ _ YC BCA) as [H1|H1]; [exact H1|].
  pose proof (proj2 (ANC b y RB RY) H1). assert (E : b = y) by (apply PINJ; auto; lia). subst. constructor.
Qed.

Definition C (u w : nat) (c : Z) : Prop :=
  exists row, dget (t_cost TT) u = Some row /\ dget row w = Some c.

Definition inc_list (R : list (nat * nat)) (x : nat) (l : list (nat * nat)) : Prop :=
  (forall e, In e l <-> In e R /\ (fst e = x \/ snd e = x)) /\ NoDup l /\
  StronglySorted (fun e f => (pre (other x e) <= pre (other x f))%Z) l.

Record rep (s : sst) (R : list (nat * nat)) : Prop := mkRep {
  r_nd : NoDup R;
  r_ok : forall e, In e R -> reach (fst e) /\ reach (snd e) /\ fst e <> snd e /\ ~ In e T /\ exists c, C (fst e) (snd e) c;
  r_inc : forall x, reach x -> exists l, dget (s_inc s) x = Some l /\ inc_list R x l;
  r_td : forall x, reach x -> exists d, dget (s_td s) x = Some d
}.

(** The effect of one call of process. *)
Definition effect (s : sst) (u w v : nat) (s' : sst) : Prop :=
  s_lab s' = s_lab s /\ s_children s' = s_children s /\ s_parent s' = s_parent s /\
  exists dv dw c, dget (s_td s) v = Some dv /\ dget (s_td s) w = Some dw /\ C u w c /\
    ((dv + c < dw)%Z /\ s_td s' = dset (s_td s) w (dv + c)%Z /\ s_pred s' = dset (s_pred s) w (Some u) /\
       s_cause s' = dset (s_cause s) w (Some v) /\ s_heap s' = (dv + c, w)%Z :: s_heap s \/
     (dw <= dv + c)%Z /\ s_td s' = s_td s /\ s_pred s' = s_pred s /\ s_cause s' = s_cause s /\ s_heap s' = s_heap s).

Lemma process_ok s R u w v dv : rep s R -> In (u, w) R -> reach v -> dget (s_td s) v = Some dv ->
  (dv < py_maxsize)%Z ->
  exists s', process TT s u w v = Ok s' /\ rep s' (rem (u, w) R) /\ effect s u w v s' /\
    forall x l, reach x -> dget (s_inc s) x = Some l -> dget (s_inc s') x = Some (rem (u, w) l).
Proof.
  intros RP I RV DV LT. destruct (r_ok _ _ RP _ I) as (RU & RW & NE & NT & c & row & C1 & C2). cbn in *.
  destruct (r_inc _ _ RP u RU) as (lu & LU & IU1 & IU2 & IU3).
  destruct (r_inc _ _ RP w RW) as (lw & LW & IW1 & IW2 & IW3).
  destruct (r_td _ _ RP w RW) as (dw & DW).
  set (inc' := dset (dset (s_inc s) u (rem (u, w) lu)) w (rem (u, w) lw)).
  assert (INC : forall x l, reach x -> dget (s_inc s) x = Some l -> dget inc' x = Some (rem (u, w) l)).
  { intros x l RX L. unfold inc'. rewrite !dget_dset. destruct (Nat.eqb_spec x w) as [->|N1]; [congruence|].
    destruct (Nat.eqb_spec x u) as [->|N2]; [congruence|]. rewrite L. f_equal. symmetry. apply rem_notin.
    intros J. destruct (r_inc _ _ RP x RX) as (l' & L' & K & _). assert (l' = l) by congruence. subst l'.
    apply K in J. cbn in J. destruct J as (_ & [J|J]); congruence. }
  assert (RP' : forall td pred cause heap, (forall x, reach x -> exists d, dget td x = Some d) ->
     rep (mkSst td pred cause (s_lab s) heap inc' (s_children s) (s_parent s)) (rem (u, w) R)).
  { intros td pred cause heap HT. constructor; cbn.
    - apply rem_NoDup, (r_nd _ _ RP).
    - intros e J. apply rem_In in J. apply (r_ok _ _ RP). tauto.
    - intros x RX. destruct (r_inc _ _ RP x RX) as (l & L & K1 & K2 & K3). exists (rem (u, w) l).
      split; [apply INC; auto|]. split; [|split; [apply rem_NoDup; auto|apply SS_filter; auto]].
      intros e. rewrite !rem_In, K1. tauto.
    - exact HT. }
  unfold process. destruct (has_edge T u w) eqn:HE; [apply has_edge_ok in HE; contradiction|].
  unfold dfetch at 1. rewrite LU. cbn [bind].
  rewrite remove_edge_ok by (auto; apply IU1; cbn; auto). cbn [bind].
  unfold dfetch at 1. rewrite dget_dset. destruct (Nat.eqb_spec w u) as [E|_]; [congruence|]. rewrite LW. cbn [bind].
  rewrite remove_edge_ok by (auto; apply IW1; cbn; auto). cbn [bind].
  unfold dfetch at 1. rewrite DV. cbn [bind]. destruct (Z.eqb_spec dv py_maxsize); [lia|].
  unfold dfetch at 1. rewrite C1. cbn [bind]. unfold dfetch at 1. rewrite C2. cbn [bind].
  unfold dfetch at 1. rewrite DW. cbn [bind]. fold inc'.
  destruct (Z.ltb_spec (dv + c) dw) as [L|L].
  - eexists. split; [reflexivity|]. cbn [set_inc s_td s_pred s_cause s_lab s_heap s_inc s_children s_parent].
    split; [|split; [|exact INC]].
    + apply RP'. intros x RX. rewrite dget_dset. destruct (Nat.eqb x w); [eauto|apply (r_td _ _ RP x RX)].
    + split; [reflexivity|]. split; [reflexivity|]. split; [reflexivity|]. exists dv, dw, c.
      split; [exact DV|]. split; [exact DW|]. split; [exists row; auto|]. left. cbn. auto.
  - eexists. split; [reflexivity|].
    split; [|split; [|exact INC]].
    + apply RP'. apply (r_td _ _ RP).
    + split; [reflexivity|]. split; [reflexivity|]. split; [reflexivity|]. exists dv, dw, c.
      split; [exact DV|]. split; [exact DW|]. split; [exists row; auto|]. right. cbn. auto.
Qed.

(** A sequence of calls of process, caused by [v], for remaining edges with [P]. *)
Inductive procs (P : nat * nat -> Prop) (v : nat) : sst -> list (nat * nat) -> sst -> list (nat * nat) -> Prop :=
| procs_nil : forall s R, procs P v s R s R
| procs_cons : forall s R u w s1 s2 R2, In (u, w) R -> P (u, w) -> rep s R ->
    rep s1 (rem (u, w) R) -> effect s u w v s1 -> procs P v s1 (rem (u, w) R) s2 R2 -> procs P v s R s2 R2.

Lemma procs_app P v s R s1 R1 s2 R2 : procs P v s R s1 R1 -> procs P v s1 R1 s2 R2 -> procs P v s R s2 R2.
Proof. induction 1; intros Q; [exact Q|]. eapply procs_cons; eauto. Qed.

Lemma procs_mono (P Q : nat * nat -> Prop) v s R s1 R1 : (forall e, In e R -> P e -> Q e) -> procs P v s R s1 R1 -> procs Q v s R s1 R1.
Proof.
  intros H D. induction D as [|s R u w s1 s2 R2 I P1 RP RP1 EF D IH]; [constructor|].
  eapply procs_cons; eauto. apply IH. intros e J. apply rem_In in J. apply H. tauto.
Qed.

Lemma procs_rep P v s R s1 R1 : procs P v s R s1 R1 -> rep s R -> rep s1 R1.
Proof. induction 1; auto. Qed.

Lemma procs_sub P v s R s1 R1 : procs P v s R s1 R1 -> incl R1 R.
Proof.
  induction 1 as [|s R u w s1 s2 R2 I P1 RP RP1 EF D IH]; intros e J; [exact J|].
  apply IH in J. apply rem_In in J. tauto.
Qed.

Lemma procs_frame P v s R s1 R1 : procs P v s R s1 R1 ->
  s_lab s1 = s_lab s /\ s_children s1 = s_children s /\ s_parent s1 = s_parent s.
Proof.
  induction 1 as [|s R u w s1 s2 R2 I P1 RP RP1 EF D IH]; [auto|].
  destruct EF as (E1 & E2 & E3 & _). destruct IH as (F1 & F2 & F3). split; [congruence|]. split; congruence.
Qed.

(** The tentative distance of the cause does not grow. *)
Lemma procs_td P v s R s1 R1 : procs P v s R s1 R1 -> forall x d, dget (s_td s) x = Some d ->
  exists d', dget (s_td s1) x = Some d' /\ (d' <= d)%Z.
Proof.
  induction 1 as [|s R u w s1 s2 R2 I P1 RP RP1 EF D IH]; intros x d TD; [exists d; split; [auto|lia]|].
  destruct EF as (_ & _ & _ & dv & dw & c & V & W & _ & [(L & E & _)|(L & E & _)]).
  - destruct (Nat.eq_dec x w) as [->|N].
    + destruct (IH w (dv + c)%Z) as (d' & D' & L'); [rewrite E, dget_dset, Nat.eqb_refl; reflexivity|].
      exists d'. split; [exact D'|]. assert (dw = d) by congruence. lia.
    + apply IH. rewrite E, dget_dset. destruct (Nat.eqb_spec x w); [contradiction|exact TD].
  - apply IH. rewrite E. exact TD.
Qed.

Definition low (s : sst) (v : nat) : Prop := exists d, dget (s_td s) v = Some d /\ (d < py_maxsize)%Z.

Lemma procs_low P v s R s1 R1 x : procs P v s R s1 R1 -> low s x -> low s1 x.
Proof.
  intros D (d & H & L). destruct (procs_td _ _ _ _ _ _ D x d H) as (d' & H' & L'). exists d'. split; [exact H'|lia].
Qed.

(** One processed edge. *)
Lemma procs_one (P : nat * nat -> Prop) s R u w v : rep s R -> In (u, w) R -> reach v -> low s v -> P (u, w) ->
  exists s', process TT s u w v = Ok s' /\ procs P v s R s' (rem (u, w) R) /\ rep s' (rem (u, w) R) /\ low s' v /\
    forall x l, reach x -> dget (s_inc s) x = Some l -> dget (s_inc s') x = Some (rem (u, w) l).
Proof.
  intros RP I RV (d & D & L) HP. destruct (process_ok s R u w v d RP I RV D L) as (s' & E & RP' & EF & INC).
  assert (PR : procs P v s R s' (rem (u, w) R)) by (eapply procs_cons; eauto; constructor).
  exists s'. split; [exact E|]. split; [exact PR|]. split; [exact RP'|]. split; [|exact INC].
  eapply procs_low; [exact PR|]. exists d. auto.
Qed.

Lemma inc_In s R x l e : rep s R -> reach x -> dget (s_inc s) x = Some l -> In e l -> In e R /\ (fst e = x \/ snd e = x).
Proof.
  intros RP RX L I. destruct (r_inc _ _ RP x RX) as (l' & L' & K & _). assert (l' = l) by congruence. subst. apply K. exact I.
Qed.

Lemma inc_nodup s R x l : rep s R -> reach x -> dget (s_inc s) x = Some l -> NoDup l.
Proof.
  intros RP RX L. destruct (r_inc _ _ RP x RX) as (l' & L' & _ & K & _). assert (l' = l) by congruence. subst. exact K.
Qed.

(** The loop over the edges at the new labelled vertex. *)
Lemma process_incident_ok v : reach v -> forall fuel s R i l, rep s R -> low s v ->
  dget (s_inc s) v = Some l -> length l <= fuel + i ->
  exists s' R', process_incident fuel TT s v i = Ok s' /\
    procs (fun e => fst e = v \/ snd e = v) v s R s' R' /\ rep s' R'.
Proof.
  intros RV. induction fuel as [|fuel IH]; intros s R i l RP LO L LE; cbn [process_incident];
    unfold dfetch at 1; rewrite L; cbn [bind]; destruct (nth_error l i) as [(u & w)|] eqn:N.
  - apply nth_error_Some_lt in N. lia.
  - exists s, R. split; [reflexivity|]. split; [constructor|exact RP].
  - pose proof (nth_error_In _ _ N) as IL. destruct (inc_In _ _ _ _ _ RP RV L IL) as (IR & IV).
    destruct (procs_one (fun e => fst e = v \/ snd e = v) s R u w v RP IR RV LO IV) as (s1 & E & PR & RP1 & LO1 & INC).
    rewrite E. cbn [bind].
    pose proof (rem_length (u, w) l (inc_nodup _ _ _ _ RP RV L) IL) as LEN.
    destruct (IH s1 _ (S i) _ RP1 LO1 (INC v l RV L)) as (s2 & R2 & E2 & PR2 & RP2); [lia|].
    exists s2, R2. split; [exact E2|]. split; [eapply procs_app; eauto|exact RP2].
  - exists s, R. split; [reflexivity|]. split; [constructor|exact RP].
Qed.

(** Whether an edge at [x] leads to the subtree of [y]. *)
Lemma wasted_ok x y u w : reach y -> reach u -> reach w -> u <> w -> (u = x \/ w = x) ->
  exists b, wasted TT x y u w = Ok b /\ (b = true <-> anc y (other x (u, w))).
Proof.
  intros RY RU RW NE H. unfold wasted, other. cbn [fst snd].
  destruct (is_anc_ok y u RY RU) as (b1 & E1 & B1). destruct (is_anc_ok y w RY RW) as (b2 & E2 & B2).
  destruct (Nat.eqb_spec u x) as [->|N1]; cbn [bind].
  - destruct (Nat.eqb_spec w x) as [->|N2]; [congruence|]. exists b2. auto.
  - rewrite E1. cbn [bind]. destruct b1.
    + exists true. split; [reflexivity|]. tauto.
    + destruct H as [H|H]; [contradiction|]. subst w. rewrite Nat.eqb_refl. exists false. split; [reflexivity|exact B1].
Qed.

(** The loop of scan_parent. *)
Lemma scan_parent_ok x v : reach x -> reach v -> forall fuel s R i l, rep s R -> low s v ->
  dget (s_inc s) x = Some l -> length l <= fuel + i ->
  exists s' R', scan_parent fuel TT s x v i = Ok s' /\
    procs (fun e => (fst e = x \/ snd e = x) /\ anc v (other x e)) v s R s' R' /\ rep s' R'.
Proof.
  intros RX RV. induction fuel as [|fuel IH]; intros s R i l RP LO L LE; cbn [scan_parent];
    unfold dfetch at 1; rewrite L; cbn [bind]; destruct (nth_error l i) as [(u & w)|] eqn:N.
  - apply nth_error_Some_lt in N. lia.
  - exists s, R. split; [reflexivity|]. split; [constructor|exact RP].
  - pose proof (nth_error_In _ _ N) as IL. destruct (inc_In _ _ _ _ _ RP RX L IL) as (IR & IX). cbn in IX.
    destruct (r_ok _ _ RP _ IR) as (RU & RW & NE & _). cbn in RU, RW, NE.
    destruct (wasted_ok x v u w RV RU RW NE IX) as (b & WE & WB). unfold wasted in WE.
    assert (X : exists b1 b2, (if Nat.eqb u x then Ok false else is_ancestor (t_pre TT) (t_post TT) v u) = Ok b1 /\
              (if b1 then Ok true else if Nat.eqb w x then Ok false else is_ancestor (t_pre TT) (t_post TT) v w) = Ok b2 /\ b2 = b).
    { destruct (if Nat.eqb u x then Ok false else is_ancestor (t_pre TT) (t_post TT) v u) as [b1| | |]; cbn [bind] in WE; try discriminate.
      exists b1. destruct b1; [exists true; inversion WE; auto|]. exists b. auto. }
    destruct X as (b1 & b2 & E1 & E2 & ->). rewrite E1. cbn [bind]. rewrite E2. cbn [bind].
    destruct b.
    + assert (A : anc v (other x (u, w))) by (apply WB; reflexivity).
      destruct (procs_one (fun e => (fst e = x \/ snd e = x) /\ anc v (other x e)) s R u w v RP IR RV LO (conj IX A))
        as (s1 & E & PR & RP1 & LO1 & INC).
      rewrite E. cbn [bind].
      pose proof (rem_length (u, w) l (inc_nodup _ _ _ _ RP RX L) IL) as LEN.
      destruct (IH s1 _ (S i) _ RP1 LO1 (INC x l RX L)) as (s2 & R2 & F2 & PR2 & RP2); [lia|].
      exists s2, R2. split; [exact F2|]. split; [eapply procs_app; eauto|exact RP2].
    + cbn [bind]. destruct (IH s R (S i) l RP LO L) as (s2 & R2 & F2 & PR2 & RP2); [lia|].
      exists s2, R2. split; [exact F2|]. split; [exact PR2|exact RP2].
  - exists s, R. split; [reflexivity|]. split; [constructor|exact RP].
Qed.

Definition leaves (x y : nat) (e : nat * nat) : Prop := (fst e = x \/ snd e = x) /\ ~ anc y (other x e).

Lemma scan_forward_ok x y v : reach x -> reach y -> reach v -> forall l fuel s R, rep s R -> low s v ->
  dget (s_inc s) x = Some l -> length l < fuel ->
  exists s' R' l', scan_forward fuel TT s x y v (length l) 0%Z (Z.of_nat (length l) - 1)%Z =
      Ok (s', 0%Z, (Z.of_nat (length l') - 1)%Z) /\
    procs (leaves x y) v s R s' R' /\ rep s' R' /\ low s' v /\ length l' <= length l /\
    dget (s_inc s') x = Some l' /\ (l' = [] \/ exists e r, l' = e :: r /\ anc y (other x e)).
Proof.
  intros RX RY RV. induction l as [|(u & w) l IH]; intros fuel s R RP LO L LE.
  - exists s, R, []. split.
    { destruct fuel; cbn [scan_forward]; unfold dfetch at 1; rewrite L; reflexivity. }
    split; [apply procs_nil|]. split; [exact RP|]. split; [exact LO|]. split; [lia|]. split; [exact L|left; reflexivity].
  - destruct fuel as [|fuel]; [cbn in LE; lia|]. cbn [scan_forward]. unfold dfetch at 1. rewrite L. cbn [bind].
    assert (LT : Z.ltb 0 (Z.of_nat (length ((u, w) :: l))) = true) by (apply Z.ltb_lt; cbn [length]; lia).
    rewrite LT. cbn [Z.to_nat nth_error].
    assert (IL : In (u, w) ((u, w) :: l)) by (left; reflexivity).
    destruct (inc_In _ _ _ _ _ RP RX L IL) as (IR & IX). cbn in IX.
    destruct (r_ok _ _ RP _ IR) as (RU & RW & NE & _). cbn in RU, RW, NE.
    destruct (wasted_ok x y u w RY RU RW NE IX) as (b & WE & WB). rewrite WE. cbn [bind]. destruct b.
    + exists s, R, ((u, w) :: l). split; [reflexivity|]. split; [constructor|]. split; [exact RP|]. split; [exact LO|].
      split; [lia|]. split; [exact L|]. right. exists (u, w), l. split; [reflexivity|]. apply WB. reflexivity.
    + assert (A : leaves x y (u, w)).
      { split; [exact IX|]. intros H. apply WB in H. discriminate. }
      destruct (procs_one (leaves x y) s R u w v RP IR RV LO A) as (s1 & E & PR & RP1 & LO1 & INC).
      rewrite E. cbn [bind]. pose proof (inc_nodup _ _ _ _ RP RX L) as ND.
      pose proof (INC x _ RX L) as L1. rewrite rem_head in L1 by exact ND.
      unfold dfetch at 1. rewrite L1. cbn [bind].
      assert (SZ : Nat.ltb (length l) (length ((u, w) :: l)) = true) by (apply Nat.ltb_lt; cbn; lia).
      rewrite SZ. replace (Z.of_nat (length ((u, w) :: l)) - 1 - 1)%Z with (Z.of_nat (length l) - 1)%Z by (cbn [length]; lia).
      destruct (IH fuel s1 _ RP1 LO1 L1) as (s2 & R2 & l2 & E2 & PR2 & RP2 & LO2 & LL & L2 & H2); [cbn in LE; lia|].
      exists s2, R2, l2. split; [exact E2|]. split; [eapply procs_app; eauto|]. split; [exact RP2|]. split; [exact LO2|].
      split; [cbn; lia|]. split; [exact L2|exact H2].
Qed.

Lemma scan_backward_ok x y v : reach x -> reach y -> reach v -> forall l fuel s R, rep s R -> low s v ->
  dget (s_inc s) x = Some l -> length l < fuel -> (l = [] \/ exists e r, l = e :: r /\ anc y (other x e)) ->
  exists s' R', scan_backward fuel TT s x y v 0%Z (Z.of_nat (length l) - 1)%Z = Ok s' /\
    procs (leaves x y) v s R s' R' /\ rep s' R' /\ low s' v /\
    forall e, In e R' -> fst e = x \/ snd e = x -> anc y (other x e).
Proof.
  intros RX RY RV l. induction l as [|(u & w) l IH] using rev_ind; intros fuel s R RP LO L LE HD.
  - exists s, R. split; [destruct fuel; reflexivity|]. split; [constructor|]. split; [exact RP|]. split; [exact LO|].
    intros e I H. destruct (r_inc _ _ RP x RX) as (l' & L' & K & _). assert (l' = []) by congruence. subst.
    assert (J : In e []) by (apply K; auto). destruct J.
  - rewrite app_length in *. cbn [length] in *.
    replace (Z.of_nat (length l + 1) - 1)%Z with (Z.of_nat (length l)) by lia.
    destruct HD as [HD|(e0 & r0 & HD & A0)]; [destruct l; discriminate|].
    assert (IL : In (u, w) (l ++ [(u, w)])) by (apply in_app_iff; right; left; reflexivity).
    destruct (inc_In _ _ _ _ _ RP RX L IL) as (IR & IX). cbn in IX.
    destruct (r_ok _ _ RP _ IR) as (RU & RW & NE & _). cbn in RU, RW, NE.
    destruct fuel as [|fuel]; [lia|]. cbn [scan_backward].
    destruct (Nat.eq_dec (length l) 0) as [Z0|NZ].
    + destruct l; [|discriminate]. cbn [app length] in *. cbn. inversion HD; subst e0 r0.
      exists s, R. split; [reflexivity|]. split; [constructor|]. split; [exact RP|]. split; [exact LO|].
      intros e I H. destruct (r_inc _ _ RP x RX) as (l' & L' & K & _). assert (l' = [(u, w)]) by congruence. subst.
      assert (J : In e [(u, w)]) by (apply K; auto). destruct J as [<-|[]]. exact A0.
    + assert (GT : Z.gtb (Z.of_nat (length l)) 0 = true) by (apply Z.gtb_lt; lia). rewrite GT.
      unfold dfetch at 1. rewrite L. cbn [bind]. rewrite Nat2Z.id.
      rewrite nth_error_app2 by lia. rewrite Nat.sub_diag. cbn [nth_error].
      destruct (wasted_ok x y u w RY RU RW NE IX) as (b & WE & WB). rewrite WE. cbn [bind]. destruct b.
      * exists s, R. split; [reflexivity|]. split; [constructor|]. split; [exact RP|]. split; [exact LO|].
        intros e I H. destruct (r_inc _ _ RP x RX) as (l' & L' & K & _ & K3). assert (l' = l ++ [(u, w)]) by congruence. subst l'.
        assert (J : In e (l ++ [(u, w)])) by (apply K; auto).
        assert (RO : forall f, In f R -> reach (other x f)).
        { intros f F. destruct (r_ok _ _ RP f F) as (F1 & F2 & _). unfold other. destruct (Nat.eqb (fst f) x); auto. }
        assert (I0 : In e0 R) by (apply (proj1 (K e0)); rewrite HD; left; reflexivity).
        assert (AL : anc y (other x (u, w))) by (apply WB; reflexivity).
        apply (block y (other x e0) (other x e) (other x (u, w))); auto.
        -- rewrite HD in K3, J. inversion K3 as [|? ? K4 K5]; subst. destruct J as [->|J]; [lia|].
           rewrite Forall_forall in K5. apply K5. exact J.
        -- clear -K3 J. apply in_app_iff in J. destruct J as [J|[<-|[]]]; [|lia].
           induction l as [|a l IH]; [destruct J|]. cbn in K3. inversion K3 as [|? ? K4 K5]; subst.
           destruct J as [->|J]; [|auto]. rewrite Forall_forall in K5. apply K5. apply in_app_iff. right. left. reflexivity.
      * assert (A : leaves x y (u, w)).
        { split; [exact IX|]. intros H. apply WB in H. discriminate. }
        destruct (procs_one (leaves x y) s R u w v RP IR RV LO A) as (s1 & E & PR & RP1 & LO1 & INC).
        rewrite E. cbn [bind]. pose proof (inc_nodup _ _ _ _ RP RX L) as ND.
        pose proof (INC x _ RX L) as L1. rewrite rem_last in L1 by exact ND.
        destruct (IH fuel s1 _ RP1 LO1 L1) as (s2 & R2 & E2 & PR2 & RP2 & LO2 & H2); [lia| |].
        { right. destruct l as [|a l]; [cbn in NZ; lia|]. inversion HD; subst. eauto. }
        exists s2, R2. split; [exact E2|]. split; [eapply procs_app; eauto|]. split; [exact RP2|]. split; [exact LO2|exact H2].
Qed.

Lemma scan_ok x y v s R : reach x -> reach y -> reach v -> rep s R -> low s v ->
  exists s' R', scan TT s x y v = Ok s' /\ procs (leaves x y) v s R s' R' /\ rep s' R' /\ low s' v /\
    forall e, In e R' -> fst e = x \/ snd e = x -> anc y (other x e).
Proof.
  intros RX RY RV RP LO. destruct (r_inc _ _ RP x RX) as (l & L & _).
  unfold scan. unfold dfetch at 1. rewrite L. cbn [bind].
  destruct (scan_forward_ok x y v RX RY RV l (S (length l)) s R RP LO L) as (s1 & R1 & l1 & E1 & PR1 & RP1 & LO1 & LL & L1 & H1); [lia|].
  rewrite E1. cbn [bind].
  destruct (scan_backward_ok x y v RX RY RV l1 (S (length l)) s1 R1 RP1 LO1 L1) as (s2 & R2 & E2 & PR2 & RP2 & LO2 & H2); [lia|exact H1|].
  exists s2, R2. split; [exact E2|]. split; [eapply procs_app; eauto|]. auto.
Qed.

End State.
