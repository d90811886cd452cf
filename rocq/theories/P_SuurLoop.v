(** * P_SuurLoop: the main loop of Suurballe's algorithm *)
From Coq Require Import Sorted.
From Verif Require Import Base P_Base M_Python M_PyCycle M_Suurballe Spec_Python Spec_Suurballe P_Python P_PyCycle P_Suurballe P_TreePath P_SuurState P_SuurLabel.
Open Scope nat_scope.

(** [m] is the first element of [ord] with [P]. *)
Definition first (ord : list nat) (P : nat -> Prop) (m : nat) : Prop :=
  exists l1 l2, ord = l1 ++ m :: l2 /\ P m /\ forall z, In z l1 -> ~ P z.

Lemma first_In ord P m : first ord P m -> In m ord /\ P m.
Proof. intros (l1 & l2 & -> & H & _). split; [|exact H]. apply in_app_iff. right. left. reflexivity. Qed.

Lemma first_app ord P m l : first ord P m -> first (ord ++ l) P m.
Proof. intros (l1 & l2 & -> & H & K). exists l1, (l2 ++ l). split; [rewrite <- app_assoc; reflexivity|]. auto. Qed.

Lemma first_new ord (P : nat -> Prop) v : P v -> (forall z, In z ord -> ~ P z) -> first (ord ++ [v]) P v.
Proof. intros H K. exists ord, []. auto. Qed.

Lemma first_split ord P v m : first (ord ++ [v]) P m ->
  first ord P m \/ (m = v /\ P v /\ forall z, In z ord -> ~ P z).
Proof.
  intros (l1 & l2 & E & H & K). destruct l2 as [|x l2] using rev_ind.
  - right. apply app_inj_tail in E. destruct E as (-> & ->). auto.
  - left. clear IHl2. rewrite app_comm_cons, app_assoc in E. apply app_inj_tail in E. destruct E as (-> & ->).
    exists l1, l2. auto.
Qed.

(** ** The heap *)
Definition hle (a b : Z * nat) : Prop := (fst a < fst b)%Z \/ fst a = fst b /\ snd a <= snd b.

Lemma hle_trans a b c : hle a b -> hle b c -> hle a c.
Proof. unfold hle. lia. Qed.

Lemma heap_min_ok h : forall m, In (heap_min m h) (m :: h) /\ forall e, In e (m :: h) -> hle (heap_min m h) e.
Proof.
  induction h as [|(d, v) h IH]; intros m; cbn [heap_min].
  - split; [left; reflexivity|]. intros e [<-|[]]. unfold hle. lia.
  - destruct (Z.ltb_spec d (fst m)); cbn [orb].
    + destruct (IH (d, v)) as (I & L). split.
      * destruct I as [<-|I]; [right; left; reflexivity|right; right; exact I].
      * intros e [<-|[<-|J]]; [|apply L; left; reflexivity|apply L; right; exact J].
        apply (hle_trans _ (d, v)); [apply L; left; reflexivity|]. unfold hle. cbn. lia.
    + destruct (Z.eqb_spec d (fst m)); destruct (Nat.ltb_spec v (snd m)); cbn [andb].
      * destruct (IH (d, v)) as (I & L). split.
        -- destruct I as [<-|I]; [right; left; reflexivity|right; right; exact I].
        -- intros e' [<-|[<-|J]]; [|apply L; left; reflexivity|apply L; right; exact J].
           apply (hle_trans _ (d, v)); [apply L; left; reflexivity|]. unfold hle. cbn. lia.
      * destruct (IH m) as (I & L). split; [destruct I as [<-|I]; cbn; auto|].
        intros e' [<-|[<-|J]]; [apply L; left; reflexivity| |apply L; right; exact J].
        apply (hle_trans _ m); [apply L; left; reflexivity|]. unfold hle. cbn. lia.
      * destruct (IH m) as (I & L). split; [destruct I as [<-|I]; cbn; auto|].
        intros e' [<-|[<-|J]]; [apply L; left; reflexivity| |apply L; right; exact J].
        apply (hle_trans _ m); [apply L; left; reflexivity|]. unfold hle. cbn. lia.
      * destruct (IH m) as (I & L). split; [destruct I as [<-|I]; cbn; auto|].
        intros e' [<-|[<-|J]]; [apply L; left; reflexivity| |apply L; right; exact J].
        apply (hle_trans _ m); [apply L; left; reflexivity|]. unfold hle. cbn. lia.
Qed.

Lemma heap_remove_ok m h : In m h -> S (length (heap_remove m h)) = length h /\ incl (heap_remove m h) h /\
  forall e, In e h -> e <> m -> In e (heap_remove m h).
Proof.
  induction h as [|(d, v) h IH]; intros I; [destruct I|]. cbn [heap_remove].
  destruct (Z.eqb_spec d (fst m)); destruct (Nat.eqb_spec v (snd m)); cbn [andb].
  - assert (E : (d, v) = m) by (destruct m; cbn in *; congruence). split; [reflexivity|]. split; [apply incl_tl, incl_refl|].
    intros e' [J|J] N; [congruence|exact J].
  - destruct I as [I|I]; [subst m; cbn in *; congruence|]. destruct (IH I) as (A & B & D).
    split; [cbn; lia|]. split; [intros x [J|J]; [left; exact J|right; apply B; exact J]|].
    intros e' [J|J] N; [left; exact J|right; apply D; auto].
  - destruct I as [I|I]; [subst m; cbn in *; congruence|]. destruct (IH I) as (A & B & D).
    split; [cbn; lia|]. split; [intros x [J|J]; [left; exact J|right; apply B; exact J]|].
    intros e' [J|J] N; [left; exact J|right; apply D; auto].
  - destruct I as [I|I]; [subst m; cbn in *; congruence|]. destruct (IH I) as (A & B & D).
    split; [cbn; lia|]. split; [intros x [J|J]; [left; exact J|right; apply B; exact J]|].
    intros e' [J|J] N; [left; exact J|right; apply D; auto].
Qed.

Lemma heappop_ok h : match heappop h with
  | None => h = []
  | Some (m, h') => In m h /\ (forall e, In e h -> hle m e) /\ S (length h') = length h /\ incl h' h /\
      forall e, In e h -> e <> m -> In e h'
  end.
Proof.
  destruct h as [|m h]; [reflexivity|]. unfold heappop. cbv zeta.
  destruct (heap_min_ok h m) as (I & L). destruct (heap_remove_ok _ _ I) as (A & B & D).
  split; [exact I|]. split; [exact L|]. split; [exact A|]. split; [exact B|exact D].
Qed.

Definition tdv (s : sst) (x : nat) : Z := match dget (s_td s) x with Some d => d | None => 0%Z end.

Section Loop.
Variable TT : stree.
Notation T := (t_edges TT).
Notation root := (t_source TT).
Notation anc := (descends (t_edges TT)).
Notation reach := (descends (t_edges TT) (t_source TT)).
Notation onp := (onpath (t_edges TT)).
Hypothesis RT : rooted_tree T root.
Variables (pre post : nat -> Z).
Hypothesis PRE : forall v, reach v -> dget (t_pre TT) v = Some (pre v).
Hypothesis POST : forall v, reach v -> dget (t_post TT) v = Some (post v).
Hypothesis ANC : forall a d, reach a -> reach d -> (pre a <= pre d /\ post d <= post a)%Z <-> anc a d.
Hypothesis PINJ : forall a b, reach a -> reach b -> pre a = pre b -> a = b.
Hypothesis NODES : forall x, reach x -> In x (t_nodes TT).
Variable R0 : list (nat * nat).
Hypothesis R0ok : forall e, In e R0 -> reach (fst e) /\ reach (snd e).
Hypothesis CNN : forall u w c, In (u, w) R0 -> C TT u w c -> (0 <= c)%Z.
Hypothesis SPLIT : forall u v w, In (u, v) R0 -> In (v, w) R0 -> v <> root -> w = root.
Notation rep := (rep TT pre).
Notation procs := (procs TT pre).
Notation C := (C TT).
Notation through := (through TT).
Notation runs := (runs TT pre).
Notation forest := (forest TT).

Lemma C_fun u w c c' : C u w c -> C u w c' -> c = c'.
Proof. intros (r & A & B) (r' & A' & B'). congruence. Qed.

(** ** What a sequence of calls of process does *)
Record delta (P : nat * nat -> Prop) (v : nat) (dv : Z) (s : sst) (R : list (nat * nat)) (s' : sst) (R' : list (nat * nat)) : Prop := mkDelta {
  d_sub : incl R' R;
  d_done : forall e, In e R -> In e R' \/ (P e /\ forall c, C (fst e) (snd e) c -> (tdv s' (snd e) <= dv + c)%Z);
  d_each : forall w, reach w ->
    (tdv s' w = tdv s w /\ dget (s_pred s') w = dget (s_pred s) w /\ dget (s_cause s') w = dget (s_cause s) w) \/
    (exists u c, In (u, w) R /\ P (u, w) /\ C u w c /\ tdv s' w = (dv + c)%Z /\ (dv + c < tdv s w)%Z /\
       dget (s_pred s') w = Some (Some u) /\ dget (s_cause s') w = Some (Some v) /\ In (tdv s' w, w) (s_heap s'));
  d_heap : incl (s_heap s) (s_heap s');
  d_new : forall d x, In (d, x) (s_heap s') -> In (d, x) (s_heap s) \/ (reach x /\ (tdv s' x <= d)%Z);
  d_len : length (s_heap s') + length R' <= length (s_heap s) + length R
}.

Lemma delta_refl P v dv s R : delta P v dv s R s R.
Proof.
  constructor.
  - apply incl_refl.
  - auto.
  - auto.
  - apply incl_refl.
  - auto.
  - lia.
Qed.

Lemma delta_le P v dv s R s' R' w : delta P v dv s R s' R' -> reach w -> (tdv s' w <= tdv s w)%Z.
Proof. intros D RW. destruct (d_each _ _ _ _ _ _ _ D w RW) as [(E & _)|(u & c & _ & _ & _ & E & L & _)]; lia. Qed.

Lemma delta_trans P v dv s R s1 R1 s2 R2 : (forall e, In e R -> reach (fst e) /\ reach (snd e)) ->
  delta P v dv s R s1 R1 -> delta P v dv s1 R1 s2 R2 -> delta P v dv s R s2 R2.
Proof.
  intros RO D1 D2. constructor.
  - eapply incl_tran; [apply (d_sub _ _ _ _ _ _ _ D2)|apply (d_sub _ _ _ _ _ _ _ D1)].
  - intros e I. destruct (d_done _ _ _ _ _ _ _ D1 e I) as [J|(J & K)]; [apply (d_done _ _ _ _ _ _ _ D2 e J)|].
    right. split; [exact J|]. intros c H. pose proof (delta_le _ _ _ _ _ _ _ (snd e) D2 (proj2 (RO e I))). specialize (K c H). lia.
  - intros w RW. destruct (d_each _ _ _ _ _ _ _ D2 w RW) as [(E1 & E2 & E3)|(u & c & A1 & A2 & A3 & A4 & A5 & A6 & A7 & A8)].
    + destruct (d_each _ _ _ _ _ _ _ D1 w RW) as [(F1 & F2 & F3)|(u & c & A1 & A2 & A3 & A4 & A5 & A6 & A7 & A8)].
      * left. rewrite E1, E2, E3. auto.
      * right. exists u, c. rewrite E1, E2, E3. repeat (split; [assumption|]). apply (d_heap _ _ _ _ _ _ _ D2). exact A8.
    + right. exists u, c. pose proof (delta_le _ _ _ _ _ _ _ w D1 RW).
      split; [apply (d_sub _ _ _ _ _ _ _ D1); exact A1|]. split; [exact A2|]. split; [exact A3|]. split; [exact A4|]. split; [lia|]. auto.
  - eapply incl_tran; [apply (d_heap _ _ _ _ _ _ _ D1)|apply (d_heap _ _ _ _ _ _ _ D2)].
  - intros d x I. destruct (d_new _ _ _ _ _ _ _ D2 d x I) as [J|J]; [|right; exact J].
    destruct (d_new _ _ _ _ _ _ _ D1 d x J) as [K|(K1 & K2)]; [left; exact K|]. right. split; [exact K1|].
    pose proof (delta_le _ _ _ _ _ _ _ x D2 K1). lia.
  - pose proof (d_len _ _ _ _ _ _ _ D1). pose proof (d_len _ _ _ _ _ _ _ D2). lia.
Qed.

Lemma delta_step (P : nat * nat -> Prop) v dv s R u w s' : rep s R -> In (u, w) R -> P (u, w) -> dget (s_td s) v = Some dv -> (forall c, C u w c -> (0 <= c)%Z) ->
  effect TT s u w v s' -> delta P v dv s R s' (rem (u, w) R) /\ dget (s_td s') v = Some dv.
Proof.
  intros RP I HP TV CP (E1 & E2 & E3 & dv' & dw & c & A1 & A2 & A3 & A4). assert (dv' = dv) by congruence. subst dv'.
  destruct (r_ok _ _ _ _ RP _ I) as (RU & RW & _). cbn in RU, RW.
  assert (LEN : S (length (rem (u, w) R)) = length R) by (apply rem_length; [apply (r_nd _ _ _ _ RP)|exact I]).
  assert (SUB : incl (rem (u, w) R) R) by (intros e J; apply rem_In in J; tauto).
  pose proof (CP c A3) as CC.
  assert (DEC : forall e, In e R -> In e (rem (u, w) R) \/ e = (u, w)).
  { intros e J. destruct (eqe e (u, w)) eqn:Q; [right; apply eqe_ok; exact Q|]. left. apply rem_In. split; [exact J|].
    intros K. apply eqe_ok in K. congruence. }
  destruct A4 as [(L & B1 & B2 & B3 & B4)|(L & B1 & B2 & B3 & B4)].
  - assert (TW : tdv s' w = (dv + c)%Z) by (unfold tdv; rewrite B1, dget_dset, Nat.eqb_refl; reflexivity).
    assert (TO : forall x, x <> w -> tdv s' x = tdv s x).
    { intros x N. unfold tdv. rewrite B1, dget_dset. destruct (Nat.eqb_spec x w); [contradiction|reflexivity]. }
    split.
    + constructor.
      * exact SUB.
      * intros e J. destruct (DEC e J) as [K| ->]; [left; exact K|]. right. split; [exact HP|]. cbn. intros c' K.
        rewrite (C_fun _ _ _ _ K A3). lia.
      * intros x RX. destruct (Nat.eq_dec x w) as [->|N].
        -- right. exists u, c. split; [exact I|]. split; [exact HP|]. split; [exact A3|]. split; [exact TW|].
           unfold tdv at 1. rewrite A2. split; [exact L|]. rewrite B2, B3, B4, !dget_dset, Nat.eqb_refl, TW.
           split; [reflexivity|]. split; [reflexivity|]. left. reflexivity.
        -- left. rewrite (TO x N), B2, B3, !dget_dset. destruct (Nat.eqb_spec x w); [contradiction|auto].
      * rewrite B4. apply incl_tl, incl_refl.
      * intros d x J. rewrite B4 in J. destruct J as [J|J]; [|left; exact J]. inversion J; subst. right.
        split; [exact RW|]. lia.
      * rewrite B4. cbn. lia.
    + rewrite B1, dget_dset. destruct (Nat.eqb_spec v w) as [->|N]; [|exact TV]. assert (dw = dv) by congruence. lia.
  - assert (TO : forall x, tdv s' x = tdv s x) by (intros x; unfold tdv; rewrite B1; reflexivity).
    split; [|rewrite B1; exact TV]. constructor.
    + exact SUB.
    + intros e J. destruct (DEC e J) as [K| ->]; [left; exact K|]. right. split; [exact HP|]. cbn. intros c' K.
      rewrite (C_fun _ _ _ _ K A3), TO. unfold tdv. rewrite A2. lia.
    + intros x RX. left. rewrite TO, B2, B3. auto.
    + rewrite B4. apply incl_refl.
    + intros d x J. rewrite B4 in J. left. exact J.
    + rewrite B4. lia.
Qed.

Lemma delta_core P v dv s R s' : same_core s s' -> delta P v dv s R s' R.
Proof.
  intros (E1 & E2 & E3 & E4 & E5). assert (TO : forall x, tdv s' x = tdv s x) by (intros x; unfold tdv; rewrite E1; reflexivity).
  constructor.
  - apply incl_refl.
  - auto.
  - intros w _. left. rewrite TO, E2, E3. auto.
  - rewrite E4. apply incl_refl.
  - intros d x I. rewrite E4 in I. auto.
  - rewrite E4. lia.
Qed.

Lemma rep_ends s R : rep s R -> forall e, In e R -> reach (fst e) /\ reach (snd e).
Proof. intros RP e I. destruct (r_ok _ _ _ _ RP e I) as (A & B & _). auto. Qed.

Lemma procs_delta P v dv s R s' R' : procs P v s R s' R' -> rep s R -> incl R R0 -> dget (s_td s) v = Some dv ->
  delta P v dv s R s' R' /\ dget (s_td s') v = Some dv.
Proof.
  induction 1 as [s R|s R u w s1 s2 R2 I HP RP RP1 EF D IH]; intros RPs SUB TV; [split; [apply delta_refl|exact TV]|].
  destruct (delta_step P v dv s R u w s1 RP I HP TV) as (D1 & T1); [intros c; apply CNN; apply SUB; exact I|exact EF|].
  destruct IH as (D2 & T2); [exact RP1| |exact T1|].
  - intros e J. apply rem_In in J. apply SUB. tauto.
  - split; [|exact T2]. eapply delta_trans; [apply (rep_ends _ _ RP)|exact D1|exact D2].
Qed.

Lemma runs_delta P v dv s R s' R' : runs P v s R s' R' -> rep s R -> incl R R0 -> dget (s_td s) v = Some dv ->
  delta P v dv s R s' R'.
Proof.
  induction 1 as [s R|s R s1 R1 s2 R2 D D' IH|s s1 R s2 R2 D D' IH]; intros RP SUB TV; [apply delta_refl| |].
  - destruct (procs_delta _ _ _ _ _ _ _ D RP SUB TV) as (D1 & T1).
    eapply delta_trans; [apply (rep_ends _ _ RP)|exact D1|]. apply IH; [eapply procs_rep; eauto| |exact T1].
    eapply incl_tran; [apply (d_sub _ _ _ _ _ _ _ D1)|exact SUB].
  - eapply delta_trans; [apply (rep_ends _ _ RP)|apply delta_core; exact D|]. apply IH; [|exact SUB|].
    + eapply core_rep; eauto.
    + destruct D as (E & _). rewrite E. exact TV.
Qed.

(** ** The invariant of the main loop *)
Record inv (s : sst) (R : list (nat * nat)) (ord : list nat) : Prop := mkInv {
  i_rep : rep s R;
  i_forest : forest s ord;
  i_sub : incl R R0;
  i_nd : NoDup ord;
  i_reach : forall x, In x ord -> reach x;
  i_head : ord = [] \/ exists o, ord = root :: o;
  i_root : tdv s root = 0%Z;
  i_range : forall x, reach x -> (0 <= tdv s x <= py_maxsize)%Z;
  i_low : forall x, In x ord -> (tdv s x < py_maxsize)%Z;
  i_sort : StronglySorted (fun x y => (tdv s x <= tdv s y)%Z) ord;
  i_next : forall x y, In x ord -> reach y -> ~ In y ord -> (tdv s x <= tdv s y)%Z;
  i_heap : forall x, reach x -> ~ In x ord -> (tdv s x < py_maxsize)%Z -> In (tdv s x, x) (s_heap s);
  i_entry : forall d x, In (d, x) (s_heap s) -> reach x /\ (tdv s x <= d)%Z;
  i_proc : forall e, In e R0 -> In e R \/ exists z, In z ord /\ through z e;
  i_left : forall e, In e R -> In (snd e) ord \/ forall z, In z ord -> ~ through z e;
  i_done : forall u w c m, In (u, w) R0 -> C u w c -> first ord (fun z => onp z u w) m -> (tdv s w <= tdv s m + c)%Z;
  i_cause : forall w, reach w -> w <> root -> (tdv s w < py_maxsize)%Z -> exists u m c,
    dget (s_pred s) w = Some (Some u) /\ dget (s_cause s) w = Some (Some m) /\ In (u, w) R0 /\ C u w c /\
    first ord (fun z => onp z u w) m /\ m <> w /\ tdv s w = (tdv s m + c)%Z
}.

Lemma inv_heap s R ord h : inv s R ord -> (forall x, reach x -> ~ In x ord -> (tdv s x < py_maxsize)%Z -> In (tdv s x, x) h) ->
  incl h (s_heap s) -> inv (set_heap s h) R ord.
Proof.
  intros I H S. pose proof I as []. constructor; auto.
  - destruct i_rep0 as [A B D E]. constructor; auto.
  - destruct i_forest0 as [A B D]. constructor; auto.
  - intros d x J. apply i_entry0. apply S. exact J.
Qed.

Lemma td_tdv s R x : rep s R -> reach x -> dget (s_td s) x = Some (tdv s x).
Proof. intros RP RX. destruct (r_td _ _ _ _ RP x RX) as (d & D). unfold tdv. rewrite D. reflexivity. Qed.

Lemma sort_ext (f g : nat -> Z) l : (forall x, In x l -> f x = g x) -> StronglySorted (fun x y => (f x <= f y)%Z) l ->
  StronglySorted (fun x y => (g x <= g y)%Z) l.
Proof.
  induction l as [|a l IH]; intros E H; [constructor|]. apply StronglySorted_inv in H. destruct H as (H & K).
  constructor; [apply IH; auto; intros x I; apply E; right; exact I|]. rewrite Forall_forall in *. intros x I.
  rewrite <- (E a), <- (E x) by (cbn; auto). auto.
Qed.

Lemma sort_snoc (f : nat -> Z) l v : StronglySorted (fun x y => (f x <= f y)%Z) l -> (forall x, In x l -> (f x <= f v)%Z) ->
  StronglySorted (fun x y => (f x <= f y)%Z) (l ++ [v]).
Proof.
  induction l as [|a l IH]; intros H K; cbn; [repeat constructor|]. apply StronglySorted_inv in H. destruct H as (H & J).
  constructor; [apply IH; auto; intros x I; apply K; right; exact I|]. apply Forall_app. split; [exact J|].
  repeat constructor. apply K. left. reflexivity.
Qed.

(** The edges that remain after labelling [v] and whose path contains [v] and no vertex
    labelled earlier lead to [v]. *)
Lemma remaining s R ord v u w : inv s R ord -> reach v -> ~ In v ord -> (tdv s v < py_maxsize)%Z ->
  In (u, w) R0 -> onp v u w -> (forall z, In z ord -> ~ onp z u w) ->
  forall R', (forall y, In (v, y) T -> ~ In y ord -> done_below TT ord v y R') -> In (u, w) R' -> w = v.
Proof.
  intros IV RV NV LV I ON FREE R' DB IR. destruct (R0ok _ I) as (RU & RW). cbn in RU, RW.
  destruct (Nat.eq_dec w v) as [E|NE]; [exact E|exfalso].
  assert (X : forall x, x = u \/ x = w -> anc v x -> x <> v -> False).
  { intros x EX VX NX. destruct (child_towards T v x VX) as [E|(y & TY & YX)]; [congruence|].
    assert (FR : forall z, anc y z -> anc z x -> ~ In z ord).
    { intros z Z1 Z2 IZ. apply (FREE z IZ). split; [destruct EX as [<-|<-]; auto|].
      intros a A1 A2. apply (anc_trans T a v z); [apply (proj2 ON a A1 A2)|].
      apply (anc_trans T v y z); [apply anc_child; exact TY|exact Z1]. }
    assert (NY : ~ In y ord) by (apply FR; [constructor|exact YX]).
    pose proof (DB y TY NY x (u, w) YX FR IR) as K. cbn in K.
    assert (YB : anc y u /\ anc y w).
    { unfold other in K. cbn in K. destruct EX as [->| ->].
      - split; [exact YX|]. rewrite Nat.eqb_refl in K. apply K. auto.
      - split; [|exact YX]. destruct (Nat.eqb_spec u w) as [->|N]; [exact YX|apply K; auto]. }
    apply (child_not_anc T root RT v y RV TY). apply (proj2 ON); tauto. }
  destruct (proj1 ON) as [VU|VW].
  - destruct (Nat.eq_dec u v) as [->|NU]; [|apply (X u); auto].
    destruct (Nat.eq_dec v root) as [->|NR].
    + apply (X w); auto.
    + destruct (i_cause _ _ _ IV v RV NR LV) as (u' & m & c & _ & _ & I' & _ & F & _).
      pose proof (SPLIT _ _ _ I' I NR) as ->.
      apply (FREE root).
      * destruct (i_head _ _ _ IV) as [E|(o & E)]; [|rewrite E; left; reflexivity].
        apply first_In in F. destruct F as (F & _). rewrite E in F. destruct F.
      * apply onpath_r.
  - apply (X w); auto.
Qed.

Lemma step_label s R ord v d h : inv s R ord -> In (d, v) (s_heap s) -> (forall e, In e (s_heap s) -> hle (d, v) e) ->
  incl h (s_heap s) -> (forall e, In e (s_heap s) -> e <> (d, v) -> In e h) ->
  ~ In v ord -> (tdv s v < py_maxsize)%Z ->
  exists s' R', label_vertex TT (set_heap s h) v = Ok s' /\ inv s' R' (ord ++ [v]) /\
    length (s_heap s') + length R' <= length h + length R.
Proof.
  intros IV ID MIN SUB REST NV LV. destruct (i_entry _ _ _ IV d v ID) as (RV & LD).
  set (s0 := set_heap s h).
  assert (RP0 : rep s0 R) by (destruct (i_rep _ _ _ IV) as [A B D E]; constructor; auto).
  assert (FO0 : forest s0 ord) by (destruct (i_forest _ _ _ IV) as [A B D]; constructor; auto).
  assert (TV : dget (s_td s0) v = Some (tdv s v)) by (apply (td_tdv _ _ _ (i_rep _ _ _ IV) RV)).
  assert (LO : low s0 v) by (exists (tdv s v); auto).
  destruct (label_vertex_ok TT RT pre post PRE POST ANC PINJ NODES s0 R ord v RP0 FO0 RV NV LO)
    as (s' & R' & E & RN & RP' & FO' & DB).
  pose proof (runs_delta _ _ _ _ _ _ _ RN RP0 (i_sub _ _ _ IV) TV) as D.
  assert (T0 : forall x, tdv s0 x = tdv s x) by reflexivity.
  (* v is the nearest of the vertices that are not labelled *)
  assert (NEAR : forall x, reach x -> ~ In x ord -> (tdv s v <= tdv s x)%Z).
  { intros x RX NX. destruct (Z.lt_ge_cases (tdv s x) py_maxsize) as [L|L]; [|lia].
    pose proof (MIN _ (i_heap _ _ _ IV x RX NX L)) as H. unfold hle in H. cbn in H. lia. }
  assert (BEFORE : forall x, In x ord -> (tdv s x <= tdv s v)%Z) by (intros x I; apply (i_next _ _ _ IV); auto).
  assert (KEEP : forall x, reach x -> (tdv s x <= tdv s v)%Z -> tdv s' x = tdv s x).
  { intros x RX L. destruct (d_each _ _ _ _ _ _ _ D x RX) as [(A & _)|(u & c & A1 & _ & A3 & A4 & A5 & _)]; [exact A|].
    pose proof (CNN u x c (i_sub _ _ _ IV _ A1) A3). rewrite T0 in A5. lia. }
  assert (KV : tdv s' v = tdv s v) by (apply KEEP; [exact RV|lia]).
  assert (KO : forall x, In x ord -> tdv s' x = tdv s x) by (intros x I; apply KEEP; [apply (i_reach _ _ _ IV); exact I|auto]).
  assert (LE : forall x, reach x -> (tdv s' x <= tdv s x)%Z) by (intros x RX; apply (delta_le _ _ _ _ _ _ _ x D RX)).
  assert (GE : forall x, reach x -> ~ In x ord -> (tdv s v <= tdv s' x)%Z).
  { intros x RX NX. destruct (d_each _ _ _ _ _ _ _ D x RX) as [(A & _)|(u & c & A1 & _ & A3 & A4 & A5 & _)].
    - rewrite A, T0. auto.
    - pose proof (CNN u x c (i_sub _ _ _ IV _ A1) A3). lia. }
  assert (ROOT : v = root \/ In root ord).
  { destruct (Nat.eq_dec v root) as [->|NR]; [left; reflexivity|]. right.
    destruct (i_cause _ _ _ IV v RV NR LV) as (u & m & c & _ & _ & _ & _ & F & _). apply first_In in F. destruct F as (F & _).
    destruct (i_head _ _ _ IV) as [Q|(o & Q)]; rewrite Q in *; [destruct F|left; reflexivity]. }
  assert (INo : forall x, In x (ord ++ [v]) <-> In x ord \/ x = v).
  { intros x. rewrite in_app_iff. cbn. intuition. }
  exists s', R'. split; [exact E|]. split.
  2: { pose proof (d_len _ _ _ _ _ _ _ D). exact H. }
  constructor.
  - exact RP'.
  - exact FO'.
  - eapply incl_tran; [apply (d_sub _ _ _ _ _ _ _ D)|apply (i_sub _ _ _ IV)].
  - apply NoDup_app_iff. split; [apply (i_nd _ _ _ IV)|]. split; [repeat constructor; intros []|].
    intros x I [<-|[]]. contradiction.
  - intros x I. apply INo in I. destruct I as [I| ->]; [apply (i_reach _ _ _ IV); exact I|exact RV].
  - right. destruct (i_head _ _ _ IV) as [Q|(o & Q)].
    + rewrite Q in *. destruct ROOT as [->|[]]. exists []. reflexivity.
    + exists (o ++ [v]). rewrite Q. reflexivity.
  - destruct ROOT as [Z|Z].
    + subst v. rewrite KV. apply (i_root _ _ _ IV).
    + rewrite KO by exact Z. apply (i_root _ _ _ IV).
  - intros x RX. split; [|pose proof (LE x RX); pose proof (i_range _ _ _ IV x RX); lia].
    destruct (in_dec Nat.eq_dec x ord) as [J|J]; [rewrite KO by exact J; apply (i_range _ _ _ IV x RX)|].
    pose proof (GE x RX J). pose proof (i_range _ _ _ IV v RV). lia.
  - intros x I. apply INo in I. destruct I as [I| ->]; [rewrite KO by exact I; apply (i_low _ _ _ IV); exact I|lia].
  - apply sort_snoc.
    + eapply sort_ext; [|apply (i_sort _ _ _ IV)]. intros x I. symmetry. apply KO. exact I.
    + intros x I. rewrite KO, KV by exact I. auto.
  - intros x y I RY NY. rewrite INo in NY. assert (NY' : ~ In y ord) by tauto. pose proof (GE y RY NY').
    apply INo in I. destruct I as [I| ->]; [|lia]. rewrite KO by exact I. pose proof (BEFORE x I). lia.
  - intros x RX NX L. rewrite INo in NX.
    destruct (d_each _ _ _ _ _ _ _ D x RX) as [(A & _)|(u & c & A1 & _ & A3 & A4 & A5 & _ & _ & A8)]; [|exact A8].
    apply (d_heap _ _ _ _ _ _ _ D). rewrite A, T0. rewrite A, T0 in L. apply REST.
    + apply (i_heap _ _ _ IV); tauto.
    + intros Q. inversion Q. tauto.
  - intros d' x I. destruct (d_new _ _ _ _ _ _ _ D d' x I) as [J|J]; [|exact J]. apply SUB in J.
    destruct (i_entry _ _ _ IV d' x J) as (K1 & K2). split; [exact K1|]. pose proof (LE x K1). lia.
  - intros e I. destruct (i_proc _ _ _ IV e I) as [J|(z & J & K)].
    + destruct (d_done _ _ _ _ _ _ _ D e J) as [K|(K & _)]; [left; exact K|]. right. exists v. split; [apply INo; auto|exact K].
    + right. exists z. split; [apply INo; auto|exact K].
  - intros (u, w) I. pose proof (d_sub _ _ _ _ _ _ _ D _ I) as IR. destruct (i_left _ _ _ IV _ IR) as [J|J].
    + left. apply INo. auto.
    + cbn [snd] in *. destruct (R0ok _ (i_sub _ _ _ IV _ IR)) as (RU & RW). cbn in RU, RW.
      destruct (onpath_dec T root RT v u w RU RW) as [ON|ON].
      * left. apply INo. right. eapply (remaining s R ord v u w); eauto. apply (i_sub _ _ _ IV _ IR).
      * right. intros z Z. apply INo in Z. destruct Z as [Z| ->]; [apply J; exact Z|exact ON].
  - intros u w c m I HC F. destruct (R0ok _ I) as (RU & RW). cbn in RU, RW. apply first_split in F. destruct F as [F|(-> & ON & FREE)].
    + pose proof (i_done _ _ _ IV u w c m I HC F). pose proof (LE w RW). destruct (first_In _ _ _ F) as (FI & _). rewrite (KO m FI). lia.
    + destruct (i_proc _ _ _ IV _ I) as [J|(z & J & K)]; [|destruct (FREE z J K)].
      destruct (d_done _ _ _ _ _ _ _ D _ J) as [K|(_ & K)].
      * assert (w = v) by (eapply (remaining s R ord v u w); eauto). subst w. pose proof (CNN u v c I HC). lia.
      * cbn in K. specialize (K c HC). rewrite KV. exact K.
  - intros w RW NR L. destruct (d_each _ _ _ _ _ _ _ D w RW) as [(A & B1 & B2)|(u & c & A1 & A2 & A3 & A4 & A5 & A6 & A7 & A8)].
    + rewrite A, T0 in *. destruct (i_cause _ _ _ IV w RW NR L) as (u & m & c & P1 & P2 & P3 & P4 & P5 & P6 & P7).
      exists u, m, c. rewrite B1, B2. split; [exact P1|]. split; [exact P2|]. split; [exact P3|]. split; [exact P4|].
      split; [apply first_app; exact P5|]. split; [exact P6|]. destruct (first_In _ _ _ P5) as (FI & _). rewrite (KO m FI). exact P7.
    + exists u, v, c. split; [exact A6|]. split; [exact A7|]. split; [apply (i_sub _ _ _ IV); exact A1|]. split; [exact A3|].
      rewrite T0 in A5. pose proof (CNN u w c (i_sub _ _ _ IV _ A1) A3) as C0.
      split; [|split; [intros ->; lia|lia]]. apply first_new; [exact A2|].
      destruct (i_left _ _ _ IV _ A1) as [J|J]; [cbn in J; pose proof (BEFORE w J); lia|exact J].
Qed.

Lemma main_loop_ok : forall fuel s R ord, inv s R ord -> length (s_heap s) + length R <= fuel ->
  exists s' R' ord', main_loop fuel TT s = Ok s' /\ inv s' R' ord' /\ s_heap s' = [].
Proof.
  induction fuel as [|fuel IH]; intros s R ord IV LE; cbn [main_loop];
    pose proof (heappop_ok (s_heap s)) as HP; destruct (heappop (s_heap s)) as [((d, v), h)|] eqn:EH.
  - destruct HP as (_ & _ & L & _). lia.
  - exists s, R, ord. auto.
  - destruct HP as (I & MIN & L & SUB & REST). destruct (i_entry _ _ _ IV d v I) as (RV & LD).
    assert (LAB : dget (s_lab (set_heap s h)) v = Some (memb v ord)) by (apply (f_lab _ _ _ (i_forest _ _ _ IV) v RV)).
    unfold dfetch at 1. rewrite LAB. cbn [bind].
    assert (SKIP : (In v ord \/ (py_maxsize <= tdv s v)%Z) -> exists s' R' ord', main_loop fuel TT (set_heap s h) = Ok s' /\ inv s' R' ord' /\ s_heap s' = []).
    { intros Q. apply (IH _ R ord); [|cbn; lia]. apply inv_heap; [exact IV| |exact SUB].
      intros x RX NX LX. apply REST; [apply (i_heap _ _ _ IV); auto|]. intros Y. inversion Y; subst. destruct Q; [contradiction|lia]. }
    destruct (memb v ord) eqn:M.
    + cbn [bind]. assert (IVo : In v ord) by (apply memb_In; exact M). rewrite Z.ltb_irrefl. apply SKIP. auto.
    + assert (NV : ~ In v ord) by (apply memb_not_In; exact M).
      assert (TV : dget (s_td (set_heap s h)) v = Some (tdv s v)) by (apply (td_tdv _ _ _ (i_rep _ _ _ IV) RV)).
      unfold dfetch at 1. rewrite TV. cbn [bind]. destruct (Z.ltb_spec (tdv s v) py_maxsize) as [LT|GE].
      * destruct (step_label s R ord v d h IV I MIN SUB REST NV LT) as (s' & R' & E & IV' & LEN).
        rewrite E. cbn [bind]. apply (IH s' R' (ord ++ [v]) IV'). lia.
      * apply SKIP. auto.
  - exists s, R, ord. auto.
Qed.

End Loop.
