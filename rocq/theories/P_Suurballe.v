From Verif Require Import Base P_Base M_Python M_PyCycle M_Suurballe Spec_Python Spec_Suurballe P_Python P_PyCycle.
Open Scope nat_scope.

Lemma dget_dset {A} (d : list (nat * A)) k a k' :
  dget (dset d k a) k' = if Nat.eqb k' k then Some a else dget d k'.
Proof.
  induction d as [|[x b] d IH]; cbn.
  - reflexivity.
  - destruct (Nat.eqb_spec k x) as [->|N]; cbn.
    + destruct (Nat.eqb_spec k' x); reflexivity.
    + rewrite IH. destruct (Nat.eqb_spec k' x) as [->|N'].
      * destruct (Nat.eqb_spec x k); [congruence|reflexivity].
      * reflexivity.
Qed.

Lemma dfetch_ok {A} (d : list (nat * A)) k a : dfetch d k = Ok a <-> dget d k = Some a.
Proof. unfold dfetch. destruct (dget d k); split; congruence. Qed.

(** ** Numbering of trees *)

Section Tree.
Variables (T : nxtree) (root : nat).
Hypothesis RT : rooted_tree T root.

Inductive level : nat -> nat -> Prop :=
| lv_root : level root 0
| lv_step : forall p c n, level p n -> In (p, c) T -> level c (S n).

Lemma one_parent p q c : In (p, c) T -> In (q, c) T -> p = q.
Proof.
  destruct RT as (N & _ & _). clear RT. induction T as [|[a b] L IH]; cbn; [tauto|].
  cbn in N. inversion N as [|? ? NI ND]; subst.
  intros [E|I] [E'|I']; try congruence.
  - inversion E; subst. destruct NI. apply (in_map snd) in I'. exact I'.
  - inversion E'; subst. destruct NI. apply (in_map snd) in I. exact I.
  - auto.
Qed.

Lemma no_root_parent p : ~ In (p, root) T.
Proof. destruct RT as (_ & N & _). intros I. apply N. apply (in_map snd) in I. exact I. Qed.

Lemma level_unique v n : level v n -> forall m, level v m -> n = m.
Proof.
  induction 1 as [|p c n L IH I]; intros m M.
  - inversion M as [|p c n' L I E1 E2]; subst; [reflexivity|]. destruct (no_root_parent p I).
  - inversion M as [|p' c' m' L' I' E1 E2]; subst.
    + destruct (no_root_parent p I).
    + rewrite (one_parent _ _ _ I' I) in L'. f_equal. auto.
Qed.

Lemma level_bound v n : level v n -> n <= length T.
Proof.
  intros L. assert (X : exists l, length l = n /\ NoDup l /\ incl l (map snd T) /\
    forall x, In x l -> exists m, m <= n /\ level x m).
  { induction L as [|p c n L IH I].
    - exists []. cbn. repeat split; [constructor|intros x []|tauto].
    - destruct IH as (l & LE & N & IN & LV). exists (c :: l). cbn [length]. split; [lia|]. split.
      + constructor; [|exact N]. intros IC. destruct (LV c IC) as (m & M & LC).
        assert (LS : level c (S n)) by (econstructor; eauto).
        pose proof (level_unique _ _ LS _ LC). lia.
      + split.
        * intros x [<-|J]; [apply (in_map snd) in I; exact I|auto].
        * intros x [<-|J]; [exists (S n); split; [lia|econstructor; eauto]|].
          destruct (LV x J) as (m & M & LM). exists m. split; [lia|exact LM]. }
  destruct X as (l & <- & N & IN & _). rewrite <- (map_length snd T). apply NoDup_incl_length; auto.
Qed.

Lemma path_level a x n : descends T a x -> level a n -> exists m, n <= m /\ level x m /\ (a = x \/ n < m).
Proof.
  intros P L. induction P as [|p c P IH I].
  - exists n. auto.
  - destruct IH as (m & M & LM & _). exists (S m). split; [lia|]. split; [econstructor; eauto|right; lia].
Qed.

Lemma path_trans a b c : descends T a b -> descends T b c -> descends T a c.
Proof. intros P Q. induction Q as [|p c Q IH I]; [exact P|]. eapply desc_step; eauto. Qed.

Lemma root_level x : descends T root x -> exists n, level x n.
Proof. intros P. destruct (path_level _ _ _ P lv_root) as (m & _ & L & _). eauto. Qed.

(* two ancestors of one vertex are comparable *)
Lemma comparable a b x : descends T a x -> descends T b x -> descends T a b \/ descends T b a.
Proof.
  intros P. induction P as [|p c P IH I]; intros Q; [right; exact Q|].
  inversion Q as [E|p' c' Q' I' E]; subst.
  - left. eapply desc_step; eauto.
  - rewrite (one_parent _ _ _ I' I) in Q'. auto.
Qed.

(* children of one vertex have no common descendant *)
Lemma siblings v n c c' x : level v n -> In (v, c) T -> In (v, c') T ->
  descends T c x -> descends T c' x -> c = c'.
Proof.
  intros L I I' P P'. assert (L1 : level c (S n)) by (econstructor; eauto).
  assert (L2 : level c' (S n)) by (econstructor; eauto).
  destruct (comparable _ _ _ P P') as [Q|Q].
  - destruct (path_level _ _ _ Q L1) as (m & _ & LM & [E|E]); [exact E|].
    rewrite (level_unique _ _ L2 _ LM) in E. lia.
  - destruct (path_level _ _ _ Q L2) as (m & _ & LM & [E|E]); [auto|].
    rewrite (level_unique _ _ L1 _ LM) in E. lia.
Qed.

Fixpoint pres (d v : nat) : list nat :=
  match d with O => [] | S d => v :: flat_map (pres d) (successors T v) end.
Fixpoint posts (d v : nat) : list nat :=
  match d with O => [] | S d => flat_map (posts d) (successors T v) ++ [v] end.
Fixpoint fits (d v : nat) : Prop :=
  match d with O => False | S d => forall c, In c (successors T v) -> fits d c end.

Lemma level_fits d : forall v n, level v n -> length T < n + d -> fits d v.
Proof.
  induction d as [|d IH]; intros v n L B.
  - apply level_bound in L. lia.
  - cbn. intros c I. apply successors_In in I. apply (IH c (S n)); [econstructor; eauto|lia].
Qed.

Lemma pres_closed d : forall v, fits d v -> forall x c, In x (pres d v) -> In (x, c) T -> In c (pres d v).
Proof.
  induction d as [|d IH]; intros v F x c I J; [destruct I|].
  cbn in I |- *. right. cbn in F. destruct I as [->|I].
  - apply successors_In in J. apply in_flat_map. exists c. split; [exact J|].
    specialize (F c J). destruct d; [destruct F|]. cbn. auto.
  - apply in_flat_map in I. destruct I as (y & Y & I). apply in_flat_map. exists y. split; [exact Y|].
    eapply IH; eauto.
Qed.

Lemma pres_In d v x : fits d v -> (In x (pres d v) <-> descends T v x).
Proof.
  intros F. split.
  - revert v F x. induction d as [|d IH]; intros v F x I; [destruct I|].
    cbn in I. destruct I as [->|I]; [constructor|]. apply in_flat_map in I. destruct I as (y & Y & I).
    cbn in F. apply (path_trans _ y).
    + eapply desc_step; [constructor|]. apply successors_In. exact Y.
    + eapply IH; eauto.
  - intros P. induction P as [|p c P IH I].
    + destruct d; [destruct F|]. cbn. auto.
    + eapply pres_closed; eauto.
Qed.

Lemma posts_In d : forall v x, In x (posts d v) <-> In x (pres d v).
Proof.
  induction d as [|d IH]; intros v x; [reflexivity|].
  cbn. rewrite in_app_iff. cbn. rewrite !in_flat_map.
  split.
  - intros [(y & Y & I)|[->|[]]]; [|auto]. right. exists y. split; [exact Y|]. apply IH. exact I.
  - intros [->|(y & Y & I)]; [auto|]. left. exists y. split; [exact Y|]. apply IH. exact I.
Qed.

Lemma NoDup_flat_map {A B} (f : A -> list B) l : NoDup l -> (forall a, In a l -> NoDup (f a)) ->
  (forall a b x, In a l -> In b l -> In x (f a) -> In x (f b) -> a = b) -> NoDup (flat_map f l).
Proof.
  induction l as [|a l IH]; intros N F D; cbn; [constructor|].
  inversion N as [|? ? NI ND]; subst. apply NoDup_app_iff. split; [apply F; cbn; auto|]. split.
  - apply IH; [exact ND| |].
    + intros b I. apply F. cbn. auto.
    + intros b c x I J. apply D; cbn; auto.
  - intros x I J. apply in_flat_map in J. destruct J as (b & Ib & J).
    assert (a = b) by (apply (D a b x); cbn; auto). subst. contradiction.
Qed.

Lemma successors_NoDup v : NoDup (successors T v).
Proof.
  destruct RT as (N & _ & _). unfold successors. clear RT. induction T as [|[a b] L IH]; [constructor|].
  cbn in N. inversion N as [|? ? NI ND]; subst. cbn. destruct (Nat.eqb_spec a v); [|auto].
  cbn. constructor; [|auto]. intros I. apply NI. apply in_map_iff in I. destruct I as (e0 & <- & J).
  apply filter_In in J. apply in_map. tauto.
Qed.

Lemma nodup_both d : forall v n, level v n -> fits d v -> NoDup (pres d v) /\ NoDup (posts d v).
Proof.
  induction d as [|d IH]; intros v n L F; [destruct F|].
  cbn in F. cbn [pres posts].
  assert (LC : forall c, In c (successors T v) -> level c (S n)).
  { intros c I. apply successors_In in I. econstructor; eauto. }
  assert (D : forall a b x, In a (successors T v) -> In b (successors T v) ->
    In x (pres d a) -> In x (pres d b) -> a = b).
  { intros a b x I J X Y. apply (pres_In d a x (F a I)) in X. apply (pres_In d b x (F b J)) in Y.
    apply successors_In in I, J. eapply siblings; eauto. }
  assert (NV : ~ In v (flat_map (pres d) (successors T v))).
  { intros I. apply in_flat_map in I. destruct I as (c & I & J). apply (pres_In d c v (F c I)) in J.
    destruct (path_level _ _ _ J (LC c I)) as (m & M & LM & _).
    pose proof (level_unique _ _ L _ LM). lia. }
  split.
  - constructor; [exact NV|]. apply NoDup_flat_map; [apply successors_NoDup| |exact D].
    intros a I. apply (IH a (S n)); auto.
  - apply NoDup_app_iff. split; [|split].
    + apply NoDup_flat_map; [apply successors_NoDup| |].
      * intros a I. apply (IH a (S n)); auto.
      * intros a b x I J X Y. rewrite posts_In in X, Y. eapply D; eauto.
    + constructor; [intros []|constructor].
    + intros x I [<-|[]]. apply NV. apply in_flat_map in I. destruct I as (c & I & J).
      apply in_flat_map. exists c. split; [exact I|]. apply posts_In. exact J.
Qed.

Lemma find_pos_app_in x a b : In x a -> find_pos x (a ++ b) = find_pos x a.
Proof.
  induction a as [|y a IH]; [intros []|]. cbn. destruct (Nat.eqb_spec y x) as [E|N]; [reflexivity|].
  intros [E|I]; [congruence|]. rewrite IH; auto.
Qed.

Definition ordered (f g : list nat) (a x : nat) : Prop :=
  find_pos a f <= find_pos x f /\ find_pos x g <= find_pos a g.

Lemma ordered_list (f g : nat -> list nat) (R : nat -> nat -> Prop) cs :
  (forall c x, In c cs -> In x (f c) <-> In x (g c)) ->
  NoDup (flat_map f cs) ->
  (forall c a x, In c cs -> In a (f c) -> In x (f c) -> ordered (f c) (g c) a x <-> R a x) ->
  (forall c a x, In c cs -> In a (f c) -> R a x -> In x (f c)) ->
  forall a x, In a (flat_map f cs) -> In x (flat_map f cs) ->
  (ordered (flat_map f cs) (flat_map g cs) a x <-> R a x).
Proof.
  induction cs as [|c cs IH]; intros S N K C a x Ia Ix; [destruct Ia|].
  cbn in *. apply NoDup_app_iff in N. destruct N as (N1 & N2 & D).
  assert (SG : forall y, In y (flat_map g cs) <-> In y (flat_map f cs)).
  { intros y. rewrite !in_flat_map. split; intros (b & B & I); exists b; split; auto; apply S; auto. }
  assert (S0 : forall y, In y (f c) <-> In y (g c)) by (intros y; apply S; auto).
  assert (D' : forall y, In y (g c) -> ~ In y (flat_map g cs)).
  { intros y I J. apply SG in J. apply S0 in I. eapply D; eauto. }
  unfold ordered. rewrite in_app_iff in Ia, Ix.
  destruct (in_dec Nat.eq_dec a (f c)) as [A|A]; destruct (in_dec Nat.eq_dec x (f c)) as [X|X].
  - rewrite !find_pos_app_in by (auto; apply S0; auto). apply (K c); auto.
  - destruct Ix as [Ix|Ix]; [contradiction|].
    assert (G1 : ~ In x (g c)) by (intros I; apply X, S0; exact I).
    rewrite (find_pos_app_in a (f c)), (find_pos_app_notin x (f c)), (find_pos_app_in a (g c)),
      (find_pos_app_notin x (g c)) by (auto; apply S0; auto).
    assert (PA : find_pos a (g c) < length (g c)) by (apply find_pos_In, S0; exact A).
    split; [lia|]. intros RA. destruct X. apply (C c a x); auto.
  - destruct Ia as [Ia|Ia]; [contradiction|].
    rewrite (find_pos_app_in x (f c)), (find_pos_app_notin a (f c)) by auto.
    assert (PA : find_pos x (f c) < length (f c)) by (apply find_pos_In; exact X).
    split; [lia|]. intros RA. apply in_flat_map in Ia. destruct Ia as (b & B & Ia).
    assert (In x (f b)) by (apply (C b a x); auto).
    destruct (D x X). apply in_flat_map. eauto.
  - destruct Ia as [Ia|Ia]; [contradiction|]. destruct Ix as [Ix|Ix]; [contradiction|].
    assert (G1 : ~ In x (g c)) by (intros I; apply X, S0; exact I).
    assert (G2 : ~ In a (g c)) by (intros I; apply A, S0; exact I).
    rewrite !find_pos_app_notin by auto.
    rewrite <- (IH (fun c' y I => S c' y (or_intror I)) N2
                 (fun c' a' y I => K c' a' y (or_intror I)) (fun c' a' y I => C c' a' y (or_intror I)) a x Ia Ix).
    unfold ordered. lia.
Qed.

Lemma ordered_tree d : forall v n, level v n -> fits d v ->
  forall a x, In a (pres d v) -> In x (pres d v) -> (ordered (pres d v) (posts d v) a x <-> descends T a x).
Proof.
  induction d as [|d IH]; intros v n L F a x Ia Ix; [destruct F|].
  destruct (nodup_both _ _ _ L F) as (N1 & N2).
  pose proof (pres_In _ _ a F) as Pa. pose proof (pres_In _ _ x F) as Px.
  cbn [pres posts] in *. cbn in F.
  assert (LC : forall c, In c (successors T v) -> level c (S n)).
  { intros c I. apply successors_In in I. econstructor; eauto. }
  inversion N1 as [|? ? NI ND]; subst.
  assert (NV : ~ In v (flat_map (posts d) (successors T v))).
  { intros I. apply NI. apply in_flat_map in I. destruct I as (c & I & J).
    apply in_flat_map. exists c. split; [exact I|]. apply posts_In. exact J. }
  assert (SP : forall y, In y (flat_map (pres d) (successors T v)) <-> In y (flat_map (posts d) (successors T v))).
  { intros y. rewrite !in_flat_map. split; intros (b & B & I); exists b; split; auto; apply posts_In; auto. }
  unfold ordered. cbn [find_pos].
  destruct (Nat.eqb_spec v a) as [<-|NA].
  - split; [intros _; apply Px; exact Ix|]. intros _. split; [lia|].
    rewrite (find_pos_app_notin v) by exact NV. cbn. rewrite Nat.eqb_refl.
    destruct Ix as [<-|Ix].
    + rewrite find_pos_app_notin by exact NV. cbn. rewrite Nat.eqb_refl. lia.
    + rewrite find_pos_app_in by (apply SP; exact Ix).
      pose proof (find_pos_le x (flat_map (posts d) (successors T v))). lia.
  - destruct Ia as [E|Ia]; [congruence|].
    destruct (Nat.eqb_spec v x) as [<-|NX].
    + split; [lia|]. intros P. exfalso.
      apply in_flat_map in Ia. destruct Ia as (c & I & J). apply (pres_In d c a (F c I)) in J.
      pose proof (path_trans _ _ _ J P) as Q.
      destruct (path_level _ _ _ Q (LC c I)) as (m & M & LM & _).
      pose proof (level_unique _ _ L _ LM). lia.
    + destruct Ix as [E|Ix]; [congruence|].
      rewrite !find_pos_app_in by (apply SP; assumption).
      rewrite <- (ordered_list (pres d) (posts d) (descends T) (successors T v)); [unfold ordered; lia| | | | |exact Ia|exact Ix].
      * intros c y _. symmetry. apply posts_In.
      * exact ND.
      * intros c a' x' I A X. eapply IH; eauto.
      * intros c a' x' I A P. apply pres_In; [auto|]. apply (pres_In d c a' (F c I)) in A.
        eapply path_trans; eauto.
Qed.

(* the numbering loops *)
Definition numbered (l : list nat) (base : nat) (m m' : list (nat * Z)) : Prop :=
  forall x, dget m' x = if in_dec Nat.eq_dec x l then Some (Z.of_nat (base + find_pos x l)) else dget m x.

Lemma numbered_app l1 l2 base m m' m'' : (forall x, In x l1 -> ~ In x l2) ->
  numbered l1 base m m' -> numbered l2 (base + length l1) m' m'' -> numbered (l1 ++ l2) base m m''.
Proof.
  intros D N1 N2 x. rewrite N2, N1. clear N1 N2.
  destruct (in_dec Nat.eq_dec x l2) as [I2|I2]; destruct (in_dec Nat.eq_dec x l1) as [I1|I1];
    destruct (in_dec Nat.eq_dec x (l1 ++ l2)) as [I|I]; rewrite in_app_iff in I; try tauto.
  - destruct (D x I1 I2).
  - rewrite find_pos_app_notin by auto. do 2 f_equal. lia.
  - rewrite find_pos_app_in by auto. reflexivity.
Qed.

Lemma numbered_one v base m : numbered [v] base m (dset m v (Z.of_nat base)).
Proof.
  intros x. rewrite dget_dset. cbn.
  destruct (Nat.eqb_spec x v) as [->|N].
  - destruct (Nat.eq_dec v v); [|congruence]. rewrite Nat.eqb_refl. do 2 f_equal. lia.
  - destruct (Nat.eq_dec v x); [congruence|reflexivity].
Qed.

Lemma numbered_nil base m : numbered [] base m m.
Proof. intros x. reflexivity. Qed.

Lemma kids_loop (f : nat -> list nat) (step : list nat * list (nat * Z) -> nat -> res (list nat * list (nat * Z))) cs :
  (forall c, In c cs -> forall o m, exists m', step (o, m) c = Ok (o ++ f c, m') /\ numbered (f c) (length o) m m') ->
  NoDup (flat_map f cs) ->
  forall o m, exists m', foldM step cs (o, m) = Ok (o ++ flat_map f cs, m') /\
    numbered (flat_map f cs) (length o) m m'.
Proof.
  induction cs as [|c cs IH]; intros K N o m; cbn.
  - exists m. rewrite app_nil_r. split; [reflexivity|apply numbered_nil].
  - cbn in N. apply NoDup_app_iff in N. destruct N as (N1 & N2 & D).
    destruct (K c (or_introl eq_refl) o m) as (m1 & E1 & M1). rewrite E1. cbn [bind].
    destruct (IH (fun c' I => K c' (or_intror I)) N2 (o ++ f c) m1) as (m2 & E2 & M2).
    exists m2. rewrite E2, app_assoc. split; [reflexivity|].
    apply (numbered_app _ _ _ m m1); auto. rewrite app_length in M2. exact M2.
Qed.

Lemma preorder_rec_ok d : forall v n, level v n -> fits d v -> forall o m,
  exists m', preorder_recursive d T v (o, m) = Ok (o ++ pres d v, m') /\ numbered (pres d v) (length o) m m'.
Proof.
  induction d as [|d IH]; intros v n L F o m; [destruct F|].
  destruct (nodup_both _ _ _ L F) as (N1 & _). cbn [pres] in *. inversion N1 as [|? ? NI ND]; subst.
  cbn [preorder_recursive]. cbn in F.
  destruct (kids_loop (pres d) (fun st' s => preorder_recursive d T s st') (successors T v)) with
    (o := o ++ [v]) (m := dset m v (Z.of_nat (length o))) as (m' & E & M).
  - intros c I o' m1. apply (IH c (S n)); [|auto]. apply successors_In in I. econstructor; eauto.
  - exact ND.
  - exists m'. rewrite E. rewrite <- app_assoc. split; [reflexivity|].
    apply (numbered_app [v] _ _ m (dset m v (Z.of_nat (length o)))).
    + intros x [<-|[]]. exact NI.
    + apply numbered_one.
    + rewrite app_length in M. exact M.
Qed.

Lemma postorder_rec_ok d : forall v n, level v n -> fits d v -> forall o m,
  exists m', postorder_recursive d T v (o, m) = Ok (o ++ posts d v, m') /\ numbered (posts d v) (length o) m m'.
Proof.
  induction d as [|d IH]; intros v n L F o m; [destruct F|].
  destruct (nodup_both _ _ _ L F) as (_ & N1). cbn [posts] in *. apply NoDup_app_iff in N1.
  destruct N1 as (ND & _ & D).
  cbn [postorder_recursive]. cbn in F.
  destruct (kids_loop (posts d) (fun st' s => postorder_recursive d T s st') (successors T v)) with
    (o := o) (m := m) as (m' & E & M).
  - intros c I o' m1. apply (IH c (S n)); [|auto]. apply successors_In in I. econstructor; eauto.
  - exact ND.
  - eexists. rewrite E. cbn [bind]. rewrite <- app_assoc. split; [reflexivity|].
    apply (numbered_app _ [v] _ m m').
    + exact D.
    + exact M.
    + rewrite app_length. apply numbered_one.
Qed.

Lemma split_before (l : list nat) x y : NoDup l -> In x l -> In y l -> x <> y -> find_pos x l <= find_pos y l ->
  comes_before l x y.
Proof.
  intros N Ix Iy D P. apply in_split in Ix. destruct Ix as (a & b & ->).
  assert (NA : ~ In x a) by (apply NoDup_remove_2 in N; rewrite in_app_iff in N; tauto).
  rewrite in_app_iff in Iy. destruct Iy as [Iy|[E|Iy]]; [|congruence|].
  - rewrite find_pos_app_notin in P by exact NA. rewrite (find_pos_app_in y) in P by exact Iy.
    assert (find_pos y a < length a) by (apply find_pos_In; exact Iy). lia.
  - apply in_split in Iy. destruct Iy as (b1 & b2 & ->). exists a, b1, b2. reflexivity.
Qed.

Lemma chain_fits d : forall v, (forall l, chain T v l -> length l <= d) -> fits d v.
Proof.
  induction d as [|d IH]; intros v H.
  - specialize (H [v] (chain_one T v)). cbn in H. lia.
  - cbn. intros c I. apply successors_In in I. apply IH. intros l L.
    specialize (H (v :: l) (chain_cons T v c l I L)). cbn in H. lia.
Qed.

(** Fewer edges than [depth] are enough. *)
Lemma chain_length l : chain T root l -> length l <= S (length T).
Proof.
  assert (X : forall v l, chain T v l -> forall n, level v n -> n + length l <= S (length T)).
  { induction 1 as [v|v c l' I C IH]; intros n LV.
    - cbn. apply level_bound in LV. lia.
    - assert (LC : level c (S n)) by (econstructor; eauto). specialize (IH _ LC). cbn. lia. }
  intros C. exact (X _ _ C 0 lv_root).
Qed.

Lemma numbering_ok depth nodes : (forall l, chain T root l -> length l <= depth) ->
  exists o1 pre o2 post,
    preorder depth nodes T root = Ok (o1, pre) /\ postorder depth nodes T root = Ok (o2, post) /\
    (NoDup o1 /\ forall v, In v o1 <-> descends T root v) /\
    (NoDup o2 /\ forall v, In v o2 <-> descends T root v) /\
    (forall p c, In (p, c) T -> comes_before o1 p c /\ comes_before o2 c p) /\
    (forall v, descends T root v -> dget pre v = Some (Z.of_nat (find_pos v o1)) /\
                                     dget post v = Some (Z.of_nat (find_pos v o2))) /\
    (forall a d, descends T root a -> descends T root d ->
       exists b, is_ancestor pre post a d = Ok b /\ (b = true <-> descends T a d)).
Proof.
  intros DE. pose proof (chain_fits depth root DE) as F.
  destruct (nodup_both _ _ _ lv_root F) as (N1 & N2).
  destruct (preorder_rec_ok depth root 0 lv_root F [] (map (fun v => (v, py_maxsize)) nodes)) as (pre & E1 & M1).
  destruct (postorder_rec_ok depth root 0 lv_root F [] (map (fun v => (v, py_maxsize)) nodes)) as (post & E2 & M2).
  assert (I1 : forall v, In v (pres depth root) <-> descends T root v) by (intros v; apply pres_In; exact F).
  assert (I2 : forall v, In v (posts depth root) <-> descends T root v) by (intros v; rewrite posts_In; auto).
  assert (NUM : forall v, descends T root v -> dget pre v = Some (Z.of_nat (find_pos v (pres depth root))) /\
                                     dget post v = Some (Z.of_nat (find_pos v (posts depth root)))).
  { intros v P. rewrite M1, M2. cbn [length].
    destruct (in_dec Nat.eq_dec v (pres depth root)) as [_|X]; [|destruct X; apply I1; exact P].
    destruct (in_dec Nat.eq_dec v (posts depth root)) as [_|X]; [|destruct X; apply I2; exact P]. auto. }
  exists (pres depth root), pre, (posts depth root), post.
  split; [exact E1|]. split; [exact E2|]. split; [split; auto|]. split; [split; auto|].
  split; [|split; [exact NUM|]].
  - intros p c I. destruct RT as (_ & _ & R). pose proof (R p c I) as P.
    assert (PC : descends T root c) by (eapply desc_step; eauto).
    assert (P1 : descends T p c) by (eapply desc_step; [constructor|exact I]).
    assert (NE : p <> c).
    { intros ->. destruct (root_level _ P) as (n & L). assert (L' : level c (S n)) by (econstructor; eauto).
      pose proof (level_unique _ _ L _ L'). lia. }
    apply (ordered_tree depth root 0 lv_root F) in P1; [|apply I1; exact P|apply I1; exact PC].
    destruct P1 as (Q1 & Q2).
    split; apply split_before; auto; try (apply I1; assumption); try (apply I2; assumption).
  - intros a d Pa Pd. unfold is_ancestor, dfetch.
    destruct (NUM a Pa) as (-> & ->). destruct (NUM d Pd) as (-> & ->). cbn [bind].
    pose proof (ordered_tree depth root 0 lv_root F a d (proj2 (I1 a) Pa) (proj2 (I1 d) Pd)) as O.
    unfold ordered in O. destruct (Z.leb_spec (Z.of_nat (find_pos a (pres depth root))) (Z.of_nat (find_pos d (pres depth root)))).
    + eexists. split; [reflexivity|]. rewrite <- O.
      rewrite Z.geb_leb, Z.leb_le. lia.
    + exists false. split; [reflexivity|]. rewrite <- O. split; [discriminate|lia].
Qed.

End Tree.

(** ** Adjusted costs *)

Lemma dwalk_app G u x v p q y z : dwalk G u x p y -> dwalk G x v q z ->
  dwalk G u v (removelast p ++ q) (y + z)%Z.
Proof.
  intros P. revert q z. induction P as [u|u a x p w y A P IH]; intros q z Q; cbn.
  - exact Q.
  - destruct p as [|b p]; [inversion P|]. cbn [removelast] in *. rewrite <- Z.add_assoc.
    change (dwalk G u v (u :: (removelast (b :: p) ++ q)) (w + (y + z))%Z).
    econstructor; [exact A|]. apply IH. exact Q.
Qed.

Lemma dwalk_hd G u v p z : dwalk G u v p z -> exists q, p = u :: q.
Proof. inversion 1; eauto. Qed.

Lemma dwalk_last G u v p z : dwalk G u v p z -> exists q, p = q ++ [v].
Proof.
  induction 1 as [u|u x v p w z A P (q & ->)]; [exists []; reflexivity|]. exists (u :: q). reflexivity.
Qed.

Lemma dwalk_split G u v z q x r : dwalk G u v (q ++ x :: r) z ->
  exists y y', dwalk G u x (q ++ [x]) y /\ dwalk G x v (x :: r) y' /\ z = (y + y')%Z.
Proof.
  revert u z. induction q as [|a q IH]; intros u z D; cbn in D.
  - destruct (dwalk_hd _ _ _ _ _ D) as (? & E). inversion E; subst. exists 0%Z, z.
    split; [constructor|]. split; [exact D|lia].
  - destruct (dwalk_hd _ _ _ _ _ D) as (? & E). inversion E; subst.
    inversion D as [|? b ? ? w z' A D']; subst.
    + destruct q; discriminate.
    + destruct (IH _ _ D') as (y & y' & D1 & D2 & ->). exists (w + y)%Z, y'.
      split; [econstructor; eauto|]. split; [exact D2|lia].
Qed.

Lemma dwalk_snoc G s u v q w z : dwalk G s u (q ++ [u]) z -> arc G u v w -> dwalk G s v (q ++ [u; v]) (z + w)%Z.
Proof.
  intros D A. assert (D2 : dwalk G u v [u; v] (w + 0)%Z) by (econstructor; [exact A|constructor]).
  pose proof (dwalk_app _ _ _ _ _ _ _ _ D D2) as X. rewrite removelast_snoc in X. rewrite Z.add_0_r in X. exact X.
Qed.

Lemma entry_unique {A} (d : list (nat * A)) k a b : NoDup (map fst d) -> entry d k a -> entry d k b -> a = b.
Proof. intros N I J. apply (dget_some _ _ _ N) in I, J. congruence. Qed.

Lemma nonneg_arc G s dist u v w du dv : shortest_distances G s dist -> arc G u v w ->
  entry dist u du -> entry dist v dv -> (0 <= adjust_edge_cost w du dv)%Z.
Proof.
  intros (N & _ & W & M) A U V. unfold adjust_edge_cost.
  destruct (W u du U) as (p & P). destruct (dwalk_last _ _ _ _ _ P) as (q & ->).
  destruct (M _ _ _ (dwalk_snoc _ _ _ _ _ _ _ P A)) as (d & D & L).
  rewrite (entry_unique _ _ _ _ N V D). lia.
Qed.

Lemma zero_tree_arc G s dist q u v du dv : directed G -> shortest_distances G s dist ->
  entry dist u du -> entry dist v dv -> dwalk G s u (q ++ [u]) du -> dwalk G s v (q ++ [u; v]) dv ->
  exists w, arc G u v w /\ adjust_edge_cost w du dv = 0%Z.
Proof.
  intros D (N & _ & W & M) U V P Q. unfold adjust_edge_cost.
  change (q ++ [u; v]) with (q ++ u :: [v]) in Q.
  destruct (dwalk_split _ _ _ _ _ _ _ Q) as (y & y' & Q1 & Q2 & ->).
  inversion Q2 as [|? x ? ? w z' A D']; subst.
  inversion D' as [|? ? ? ? ? ? ? D'']; subst; [|inversion D''].
  exists w. split; [exact A|].
  destruct (M _ _ _ Q1) as (d & E & L). rewrite (entry_unique _ _ _ _ N E U) in L.
  destruct (M _ _ _ (dwalk_snoc _ _ _ _ _ _ _ P A)) as (d' & E' & L').
  rewrite (entry_unique _ _ _ _ N E' V) in L'. lia.
Qed.

Lemma Forall2_in_l {A B} (R : A -> B -> Prop) l l' a : Forall2 R l l' -> In a l -> exists b, In b l' /\ R a b.
Proof.
  induction 1 as [|x y l l' R1 F IH]; intros I; [destruct I|].
  destruct I as [->|I]; [exists y; cbn; auto|]. destruct (IH I) as (b & J & R2). exists b. cbn. auto.
Qed.

Lemma Forall2_in_r {A B} (R : A -> B -> Prop) l l' b : Forall2 R l l' -> In b l' -> exists a, In a l /\ R a b.
Proof.
  induction 1 as [|x y l l' R1 F IH]; intros I; [destruct I|].
  destruct I as [->|I]; [exists x; cbn; auto|]. destruct (IH I) as (a & J & R2). exists a. cbn. auto.
Qed.

Lemma mapM_cond {A B} (f : A -> res B) (R : A -> B -> Prop) l :
  (forall a, In a l -> exists b, f a = Ok b /\ R a b) -> exists l', mapM f l = Ok l' /\ Forall2 R l l'.
Proof.
  induction l as [|a l IH]; intros H; cbn.
  - exists []. split; [reflexivity|constructor].
  - destruct (H a (or_introl eq_refl)) as (b & -> & R1). cbn [bind].
    destruct IH as (l' & -> & R2); [intros; apply H; cbn; auto|]. cbn [bind]. eexists. split; [reflexivity|].
    constructor; auto.
Qed.

Lemma dsub_arc G keep u v w : arc (dsubgraph G keep) u v w <-> arc G u v w /\ keep u = true /\ keep v = true.
Proof.
  unfold arc, dsubgraph. split.
  - intros (l & I & J). apply in_map_iff in I. destruct I as ((u' & l') & E & I). inversion E; subst.
    apply filter_In in I. apply filter_In in J. cbn in *. destruct I, J. eauto.
  - intros ((l & I & J) & K1 & K2). exists (filter (fun e => keep (fst e)) l). split.
    + apply in_map_iff. exists (u, l). split; [reflexivity|]. apply filter_In. auto.
    + apply filter_In. auto.
Qed.

Lemma reached_arc G s dist u v w : shortest_distances G s dist -> arc G u v w ->
  In u (map fst dist) -> In v (map fst dist).
Proof.
  intros (N & _ & W & M) A I. apply in_map_iff in I. destruct I as ((u' & du) & <- & I). cbn in A.
  destruct (W u' du I) as (p & P). destruct (dwalk_last _ _ _ _ _ P) as (q & ->).
  destruct (M _ _ _ (dwalk_snoc _ _ _ _ _ _ _ P A)) as (d & D & _). apply (in_map fst) in D. exact D.
Qed.

Definition potential (dist : list (nat * Z)) (G' G : list (nat * list (nat * Z))) : Prop :=
  forall u v w', arc G' u v w' <-> exists w du dv, arc G u v w /\ entry dist u du /\ entry dist v dv /\
    w' = (w + du - dv)%Z.

Lemma dist_entry (dist : list (nat * Z)) v : In v (map fst dist) -> exists d, entry dist v d.
Proof. intros I. apply in_map_iff in I. destruct I as ((x & d) & <- & I). exists d. exact I. Qed.

Lemma adjusted_ok G s dist : directed G -> shortest_distances G s dist ->
  exists G', adjust_edge_cost_for_graph (dsubgraph G (fun v => memb v (map fst dist))) dist = Ok G' /\
    map fst G' = map fst (dsubgraph G (fun v => memb v (map fst dist))) /\
    potential dist G' G.
Proof.
  intros D SD. set (keep := fun v => memb v (map fst dist)). set (sub := dsubgraph G keep).
  assert (N : NoDup (map fst dist)) by (destruct SD; auto).
  assert (KE : forall u, keep u = true -> exists d, entry dist u d /\ dfetch dist u = Ok d).
  { intros u K. apply memb_In in K. destruct (dist_entry _ _ K) as (d & E). exists d. split; [exact E|].
    apply dfetch_ok. apply dget_some; auto. }
  assert (KS : forall u l, In (u, l) sub -> keep u = true /\ forall v w, In (v, w) l -> keep v = true).
  { intros u l I. apply in_map_iff in I. destruct I as ((u' & l') & E & I). inversion E; subst.
    apply filter_In in I. split; [tauto|]. intros v w J. apply filter_In in J. cbn in J. tauto. }
  destruct (mapM_cond (fun '(u, nbrs) =>
    do row <- mapM (fun '(v, w) =>
      do du <- dfetch dist u;
      do dv <- dfetch dist v;
      Ok (v, adjust_edge_cost w du dv)) nbrs;
    Ok (u, row))
    (fun a b => fst b = fst a /\ Forall2 (fun x y => fst y = fst x /\ exists du dv, entry dist (fst a) du /\
        entry dist (fst x) dv /\ snd y = (snd x + du - dv)%Z) (snd a) (snd b)) sub) as (G' & E & F).
  { intros (u & l) I. destruct (KS u l I) as (Ku & Kl). destruct (KE u Ku) as (du & Eu & Fu).
    destruct (mapM_cond (fun '(v, w) =>
      do du <- dfetch dist u;
      do dv <- dfetch dist v;
      Ok (v, adjust_edge_cost w du dv)) (fun x y => fst y = fst x /\ exists du dv, entry dist u du /\
        entry dist (fst x) dv /\ snd y = (snd x + du - dv)%Z) l) as (row & Er & Fr).
    { intros (v & w) J. destruct (KE v (Kl v w J)) as (dv & Ev & Fv). rewrite Fu. cbn [bind]. rewrite Fv.
      eexists. split; [reflexivity|]. cbn. split; [reflexivity|]. exists du, dv.
      split; [exact Eu|]. split; [exact Ev|]. unfold adjust_edge_cost. lia. }
    rewrite Er. eexists. split; [reflexivity|]. cbn. split; [reflexivity|exact Fr]. }
  exists G'. split; [exact E|]. split.
  { clear E KS. induction F as [|a b l l' (Ea & _) F IH]; [reflexivity|]. cbn. congruence. }
  intros u v w'. split.
  - intros (row & I & J). destruct (Forall2_in_r _ _ _ _ F I) as ((u0 & l) & I0 & E0 & Fr).
    cbn in E0, Fr. subst u0. destruct (Forall2_in_r _ _ _ _ Fr J) as ((v0 & w) & J0 & E1 & du & dv & Eu & Ev & EW).
    cbn in E1, Ev, EW. subst v0. exists w, du, dv. split; [|auto].
    assert (A : arc sub u v w) by (exists l; auto). apply dsub_arc in A. tauto.
  - intros (w & du & dv & A & Eu & Ev & ->).
    assert (A' : arc sub u v w).
    { apply dsub_arc. split; [exact A|]. split; apply memb_In; [apply (in_map fst) in Eu|apply (in_map fst) in Ev]; assumption. }
    destruct A' as (l & I & J). destruct (Forall2_in_l _ _ _ _ F I) as ((u0 & row) & I0 & E0 & Fr).
    cbn in E0, Fr. subst u0. destruct (Forall2_in_l _ _ _ _ Fr J) as ((v0 & w0) & J0 & E1 & du' & dv' & Eu' & Ev' & EW).
    cbn in E1, Ev', EW. subst. exists row. split; [exact I0|].
    rewrite (entry_unique _ _ _ _ N Eu Eu'), (entry_unique _ _ _ _ N Ev Ev'). exact J0.
Qed.

Lemma potential_walk G s dist G' : shortest_distances G s dist -> potential dist G' G ->
  forall u v p du dv, entry dist u du -> entry dist v dv ->
  forall z, dwalk G u v p z <-> dwalk G' u v p (z + du - dv)%Z.
Proof.
  intros SD PO. assert (N : NoDup (map fst dist)) by (destruct SD; auto).
  intros u v p. revert u. induction p as [|a p IH]; intros u du dv U V z.
  - split; inversion 1.
  - split; intros D.
    + inversion D as [|? x ? ? w z' A D']; subst.
      * rewrite (entry_unique _ _ _ _ N U V). replace (0 + dv - dv)%Z with 0%Z by lia. constructor.
      * assert (X : In x (map fst dist)).
        { eapply reached_arc; [exact SD|exact A|]. apply (in_map fst) in U. exact U. }
        destruct (dist_entry _ _ X) as (dx & EX).
        replace (w + z' + du - dv)%Z with ((w + du - dx) + (z' + dx - dv))%Z by lia.
        apply dw_cons with (x := x).
        -- apply PO. exists w, du, dx. auto.
        -- apply (IH x dx dv EX V). exact D'.
    + inversion D as [? E1 E2 E3 E4|? x ? ? w' z' A D' E1 E2 E3 E4]; subst.
      * rewrite (entry_unique _ _ _ _ N U V) in *. replace z with 0%Z by lia. constructor.
      * apply PO in A. destruct A as (w & du' & dx & A & U' & X & ->).
        rewrite (entry_unique _ _ _ _ N U' U) in *.
        replace z with (w + (z' + dv - dx))%Z by lia. apply dw_cons with (x := x); [exact A|].
        apply (IH x dx dv X V). replace (z' + dv - dx + dx - dv)%Z with z' by lia. exact D'.
Qed.

Lemma pair_cost_ok T st target p q a1 a2 (G G' : list (nat * list (nat * Z))) s :
  shortest_distances G s (t_dist T) -> potential (t_dist T) G' G -> In target (map fst (t_dist T)) ->
  dwalk G' s target p a1 -> dwalk G' s target q a2 ->
  dget (s_td st) target = Some (a1 + a2)%Z -> (a1 + a2 < py_maxsize)%Z ->
  exists z1 z2, dwalk G s target p z1 /\ dwalk G s target q z2 /\
    edge_disjoint_path_cost T st target = Ok (z1 + z2)%Z.
Proof.
  intros SD PO I P Q TD LT. assert (N : NoDup (map fst (t_dist T))) by (destruct SD; auto).
  destruct (dist_entry _ _ I) as (dt & ET). assert (ES : entry (t_dist T) s 0%Z) by (destruct SD as (_ & E & _); exact E).
  pose proof (potential_walk _ _ _ _ SD PO s target p 0%Z dt ES ET (a1 + dt)) as WP.
  pose proof (potential_walk _ _ _ _ SD PO s target q 0%Z dt ES ET (a2 + dt)) as WQ.
  replace (a1 + dt + 0 - dt)%Z with a1 in WP by lia. replace (a2 + dt + 0 - dt)%Z with a2 in WQ by lia.
  exists (a1 + dt)%Z, (a2 + dt)%Z. split; [apply WP; exact P|]. split; [apply WQ; exact Q|].
  unfold edge_disjoint_path_cost, dfetch. rewrite TD. cbn [bind].
  destruct (Z.eqb_spec (a1 + a2) py_maxsize); [lia|].
  rewrite (dget_some _ _ _ N ET). cbn [bind]. f_equal. lia.
Qed.

(** ** The shortest-path tree *)

Definition parent_of (p : list nat) : option nat :=
  if Nat.leb (length p) 1 then null_vertex else nth_error p (length p - 2).

Lemma dset_new {A} (d : list (nat * A)) k a : ~ In k (map fst d) -> dset d k a = d ++ [(k, a)].
Proof.
  induction d as [|[x b] d IH]; intros N; cbn; [reflexivity|].
  destruct (Nat.eqb_spec k x) as [->|]; [destruct N; cbn; auto|]. rewrite IH; [reflexivity|]. cbn in N. tauto.
Qed.

Lemma find_parents_ok paths : NoDup (map fst paths) ->
  find_parents_in_shortest_path_tree paths = map (fun '(v, p) => (v, parent_of p)) paths.
Proof.
  unfold find_parents_in_shortest_path_tree. intros N.
  enough (X : forall acc, (forall v, In v (map fst paths) -> ~ In v (map fst acc)) ->
    fold_left (fun parents '(v, path) => dset parents v (if Nat.leb (length path) 1 then null_vertex
       else nth_error path (length path - 2))) paths acc = acc ++ map (fun '(v, p) => (v, parent_of p)) paths).
  { rewrite X; [reflexivity|]. intros v _ []. }
  induction paths as [|[v p] l IH]; intros acc D; cbn; [symmetry; apply app_nil_r|].
  cbn in N. inversion N as [|? ? NI ND]; subst.
  rewrite dset_new by (apply D; cbn; auto).
  rewrite IH; [rewrite <- app_assoc; reflexivity|exact ND|].
  intros x I. rewrite map_app, in_app_iff. cbn. intros [J|[->|[]]]; [|contradiction].
  revert J. apply D. cbn. auto.
Qed.

Lemma parent_of_snoc q u v : parent_of (q ++ [u; v]) = Some u.
Proof.
  unfold parent_of. rewrite app_length. cbn.
  replace (Nat.leb (length q + 2) 1) with false by (symmetry; apply Nat.leb_gt; lia).
  replace (length q + 2 - 2) with (length q) by lia.
  rewrite nth_error_app2 by lia. rewrite Nat.sub_diag. reflexivity.
Qed.

Lemma long_path G s v p z : dwalk G s v p z -> s <> v -> exists q u, p = q ++ [u; v].
Proof.
  intros D N. destruct (dwalk_last _ _ _ _ _ D) as (q & ->).
  destruct (exists_last (l := q)) as (q' & u & ->).
  - intros ->. apply N. destruct (dwalk_hd _ _ _ _ _ D) as (? & E). inversion E. reflexivity.
  - exists q', u. rewrite <- app_assoc. reflexivity.
Qed.

Lemma tree_edges_ok G s dist paths : shortest_paths G s dist paths ->
  exists T, tree_edges s (find_parents_in_shortest_path_tree paths) = Ok T /\
    NoDup (map snd T) /\
    (forall u v, In (u, v) T <-> v <> s /\ exists q, entry paths v (q ++ [u; v])).
Proof.
  intros (N & K & W & _ & _). rewrite (find_parents_ok _ N). unfold tree_edges.
  enough (X : forall l, NoDup (map fst l) ->
    (forall v p, In (v, p) l -> exists d, dwalk G s v p d) -> forall acc,
    (forall v, In v (map fst l) -> ~ In v (map snd acc)) -> NoDup (map snd acc) ->
    exists T, foldM (fun T '(v, p) =>
    if Nat.eqb s v then Ok T
    else match p with
         | Some u => Ok (if existsb (fun e => andb (Nat.eqb (fst e) u) (Nat.eqb (snd e) v)) T
                         then T else T ++ [(u, v)])
         | None => UB NullDeref
         end) (map (fun '(v, p) => (v, parent_of p)) l) acc = Ok T /\ NoDup (map snd T) /\
    (forall u v, In (u, v) T <-> In (u, v) acc \/ v <> s /\ exists q, In (v, q ++ [u; v]) l)).
  { destruct (X paths N) with (acc := @nil (nat * nat)) as (T & E & ND & I).
    - intros v p I. destruct (W v p I) as (d & _ & D). eauto.
    - intros v _ [].
    - constructor.
    - exists T. split; [exact E|]. split; [exact ND|]. intros u v. rewrite I. unfold entry. cbn. tauto. }
  clear N K W. induction l as [|[v p] l IH]; intros N W acc D NA; cbn [map foldM].
  - exists acc. split; [reflexivity|]. split; [exact NA|]. intros u v. cbn.
    split; [auto|]. intros [I|(_ & q & [])]. exact I.
  - cbn in N. inversion N as [|? ? NI ND]; subst.
    destruct (Nat.eqb_spec s v) as [<-|NS].
    + cbn [bind]. destruct (IH ND) with (acc := acc) as (T & E & NT & I).
      * intros; apply W; cbn; auto.
      * intros x J. apply D. cbn. auto.
      * exact NA.
      * exists T. split; [exact E|]. split; [exact NT|]. intros u v. rewrite I. cbn.
        split.
        -- intros [J|(J & q & Q)]; [auto|]. right. split; [exact J|]. exists q. auto.
        -- intros [J|(J & q & [Q|Q])]; [auto|congruence|]. right. eauto.
    + destruct (W v p (or_introl eq_refl)) as (d & DW). destruct (long_path _ _ _ _ _ DW NS) as (q & u & ->).
      rewrite parent_of_snoc.
      assert (EX : existsb (fun e => andb (Nat.eqb (fst e) u) (Nat.eqb (snd e) v)) acc = false).
      { destruct (existsb _ acc) eqn:EX; [|reflexivity]. apply existsb_exists in EX. destruct EX as ((a & b) & I & J).
        cbn in J. apply andb_true_iff in J. destruct J as (J1 & J2). apply Nat.eqb_eq in J1, J2. subst.
        destruct (D v (or_introl eq_refl)). apply (in_map snd) in I. exact I. }
      rewrite EX. cbn [bind]. destruct (IH ND) with (acc := acc ++ [(u, v)]) as (T & E & NT & I).
      * intros; apply W; cbn; auto.
      * intros x J. rewrite map_app, in_app_iff. cbn. intros [H|[->|[]]]; [|contradiction].
        revert H. apply D. cbn. auto.
      * rewrite map_app. apply NoDup_app_iff. split; [exact NA|]. split; [repeat constructor; auto|].
        intros x H [EQ|[]]. cbn in EQ. subst x. revert H. apply D. cbn. auto.
      * exists T. split; [exact E|]. split; [exact NT|]. intros a b. rewrite I, in_app_iff. cbn. split.
        -- intros [[J|[J|[]]]|(J & q' & Q)]; [auto| |].
           ++ inversion J; subst. right. split; [congruence|]. exists q. auto.
           ++ right. split; [exact J|]. exists q'. auto.
        -- intros [J|(J & q' & [Q|Q])]; [auto| |].
           ++ left. right. left. injection Q as E1 E2. subst b. apply (f_equal parent_of) in E2.
              rewrite !parent_of_snoc in E2. congruence.
           ++ right. eauto.
Qed.

Lemma shortest_tree G s dist paths : shortest_distances G s dist -> shortest_paths G s dist paths ->
  exists T, tree_edges s (find_parents_in_shortest_path_tree paths) = Ok T /\ rooted_tree T s /\
    (forall v, descends T s v <-> In v (map fst dist)) /\
    (forall u v, In (u, v) T -> exists q, entry paths u (q ++ [u]) /\ entry paths v (q ++ [u; v])).
Proof.
  intros SD SP. destruct (tree_edges_ok _ _ _ _ SP) as (T & E & N & I). exists T. split; [exact E|].
  destruct SP as (NP & K & W & SS & PC).
  assert (R : forall n v p, length p <= n -> entry paths v p -> descends T s v).
  { induction n as [|n IH]; intros v p L EP.
    - destruct (W v p EP) as (d & _ & D). destruct (dwalk_hd _ _ _ _ _ D) as (? & ->). cbn in L. lia.
    - destruct (Nat.eq_dec s v) as [<-|NS]; [constructor|].
      destruct (W v p EP) as (d & _ & D). destruct (long_path _ _ _ _ _ D NS) as (q & u & ->).
      apply (desc_step _ _ u).
      + apply (IH u (q ++ [u])); [rewrite app_length in *; cbn in *; lia|]. apply (PC v (q ++ [u; v]) u q EP eq_refl).
      + apply I. split; [congruence|eauto]. }
  assert (B : forall v, descends T s v <-> In v (map fst dist)).
  { intros v. split.
    - intros P. rewrite <- K. inversion P as [|p c P' J]; subst.
      + apply (in_map fst) in SS. exact SS.
      + apply I in J. destruct J as (_ & q & J). apply (in_map fst) in J. exact J.
    - intros J. rewrite <- K in J. apply in_map_iff in J. destruct J as ((x & p) & <- & J). cbn.
      apply (R (length p) x p (le_n _) J). }
  split; [|split].
  - split; [exact N|]. split.
    + intros J. apply in_map_iff in J. destruct J as ((u & v) & EV & J). cbn in EV. subst v.
      apply I in J. tauto.
    + intros u v J. apply I in J. destruct J as (_ & q & J).
      apply (R (length (q ++ [u])) u (q ++ [u]) (le_n _)). apply (PC v (q ++ [u; v]) u q J eq_refl).
  - exact B.
  - intros u v J. apply I in J. destruct J as (_ & q & J). exists q. split; [|exact J].
    apply (PC v (q ++ [u; v]) u q J eq_refl).
Qed.

(** ** Removing from a list *)

Lemma remove_child_first w cs : (forall r, remove_child w cs = Ok r <-> exists a b, cs = a ++ w :: b /\ ~ In w a /\ r = a ++ b) /\
  (~ In w cs <-> remove_child w cs = Throw ValueErrorPy).
Proof.
  induction cs as [|x cs (IH1 & IH2)]; cbn [remove_child].
  - split.
    + intros r. split; [discriminate|]. intros ([|? ?] & b & E & _); discriminate.
    + cbn. tauto.
  - destruct (Nat.eqb_spec x w) as [-> |NE].
    + split.
      * intros r. split.
        -- intros E. inversion E; subst. exists [], r. auto.
        -- intros (a & b & E & NI & ->). destruct a as [|y a]; inversion E; subst; [reflexivity|]. destruct NI. left. reflexivity.
      * cbn. split; [tauto|discriminate].
    + split.
      * intros r. split.
        -- intros E. apply bind_ok in E. destruct E as (r' & E & E'). inversion E'; subst. apply IH1 in E. destruct E as (a & b & -> & NI & ->).
           exists (x :: a), b. split; [reflexivity|]. split; [|reflexivity]. intros [?|?]; [congruence|contradiction].
        -- intros (a & b & E & NI & ->). destruct a as [|y a]; inversion E; subst; [congruence|].
           rewrite (proj2 (IH1 (a ++ b))); [reflexivity|]. exists a, b. split; [reflexivity|]. split; [|reflexivity]. intros I. apply NI. right. exact I.
      * cbn [In]. split.
        -- intros H. rewrite (proj1 IH2) by tauto. reflexivity.
        -- intros H [?|I]; [congruence|]. destruct (remove_child w cs) as [r|e|u|] eqn:E; cbn in H; try discriminate.
           revert I. apply IH2. congruence.
Qed.

Lemma remove_edge_first e l : (forall r, remove_edge e l = Ok r <-> exists a b, l = a ++ e :: b /\ ~ In e a /\ r = a ++ b) /\
  (~ In e l <-> remove_edge e l = Throw ValueErrorPy).
Proof.
  induction l as [|x l (IH1 & IH2)]; cbn [remove_edge].
  - split.
    + intros r. split; [discriminate|]. intros ([|? ?] & b & E & _); discriminate.
    + cbn. tauto.
  - assert (D : x = e /\ andb (Nat.eqb (fst x) (fst e)) (Nat.eqb (snd x) (snd e)) = true \/
                x <> e /\ andb (Nat.eqb (fst x) (fst e)) (Nat.eqb (snd x) (snd e)) = false).
    { destruct x as (a, b), e as (c, d). cbn. destruct (Nat.eqb_spec a c), (Nat.eqb_spec b d); subst; cbn; auto; right; split; congruence. }
    destruct D as [(-> & ->)|(NE & ->)].
    + split.
      * intros r. split.
        -- intros E. inversion E; subst. exists [], r. auto.
        -- intros (a & b & E & NI & ->). destruct a as [|y a]; inversion E; subst; [reflexivity|]. destruct NI. left. reflexivity.
      * cbn. split; [tauto|discriminate].
    + split.
      * intros r. split.
        -- intros E. apply bind_ok in E. destruct E as (r' & E & E'). inversion E'; subst. apply IH1 in E. destruct E as (a & b & -> & NI & ->).
           exists (x :: a), b. split; [reflexivity|]. split; [|reflexivity]. intros [?|?]; [congruence|contradiction].
        -- intros (a & b & E & NI & ->). destruct a as [|y a]; inversion E; subst; [congruence|].
           rewrite (proj2 (IH1 (a ++ b))); [reflexivity|]. exists a, b. split; [reflexivity|]. split; [|reflexivity]. intros I. apply NI. right. exact I.
      * cbn [In]. split.
        -- intros H. rewrite (proj1 IH2) by tauto. reflexivity.
        -- intros H [?|I]; [congruence|]. destruct (remove_edge e l) as [r|f|u|] eqn:E; cbn in H; try discriminate.
           revert I. apply IH2. congruence.
Qed.

(** ** The recursion limit *)

Lemma rec_outcome {A} (f : A -> nat -> res A) l : (forall a x, In x l -> (exists b, f a x = Ok b) \/ f a x = Throw RecursionErrorPy) ->
  forall a, (exists b, foldM f l a = Ok b) \/ foldM f l a = Throw RecursionErrorPy.
Proof.
  induction l as [|x l IH]; intros H a; cbn; [eauto|].
  destruct (H a x (or_introl eq_refl)) as [(b & ->)| ->]; cbn [bind]; [|auto].
  apply IH. intros. apply H. right. assumption.
Qed.

Lemma rec_deep {A} (f : A -> nat -> res A) l c : In c l ->
  (forall a x, In x l -> (exists b, f a x = Ok b) \/ f a x = Throw RecursionErrorPy) ->
  (forall a, f a c = Throw RecursionErrorPy) -> forall a, foldM f l a = Throw RecursionErrorPy.
Proof.
  induction l as [|x l IH]; intros I H D a; [destruct I|]. cbn.
  destruct (H a x (or_introl eq_refl)) as [(b & E)|E].
  - destruct I as [-> |I]; [rewrite D in E; discriminate|]. rewrite E. cbn [bind]. apply IH; auto. intros. apply H. right. assumption.
  - rewrite E. reflexivity.
Qed.

Lemma preorder_outcome T d : forall v st, (exists b, preorder_recursive d T v st = Ok b) \/ preorder_recursive d T v st = Throw RecursionErrorPy.
Proof.
  induction d as [|d IH]; intros v (o, m); cbn [preorder_recursive]; [auto|]. apply rec_outcome. intros. apply IH.
Qed.

Lemma postorder_outcome T d : forall v st, (exists b, postorder_recursive d T v st = Ok b) \/ postorder_recursive d T v st = Throw RecursionErrorPy.
Proof.
  induction d as [|d IH]; intros v st; cbn [postorder_recursive]; [auto|].
  destruct (rec_outcome (fun st' s => postorder_recursive d T s st') (successors T v)) with (a := st) as [((o, m) & ->)| ->]; cbn [bind]; eauto.
Qed.

Lemma preorder_deep T v l : chain T v l -> forall d st, d < length l -> preorder_recursive d T v st = Throw RecursionErrorPy.
Proof.
  induction 1 as [v|v c l I C IH]; intros d (o, m) L; (destruct d as [|d]; [reflexivity|]); cbn in L; [lia|]. cbn [preorder_recursive].
  apply (rec_deep _ _ c); [apply successors_In; exact I|intros; apply preorder_outcome|]. intros a. apply IH. lia.
Qed.

Lemma postorder_deep T v l : chain T v l -> forall d st, d < length l -> postorder_recursive d T v st = Throw RecursionErrorPy.
Proof.
  induction 1 as [v|v c l I C IH]; intros d st L; (destruct d as [|d]; [reflexivity|]); cbn in L; [lia|]. cbn [postorder_recursive].
  rewrite (rec_deep (fun st' s => postorder_recursive d T s st') (successors T v) c); [reflexivity|apply successors_In; exact I|intros; apply postorder_outcome|].
  intros a. apply IH. lia.
Qed.

Lemma chain_snoc T v q u c : chain T v (q ++ [u]) -> In (u, c) T -> chain T v (q ++ [u; c]).
Proof.
  revert v. induction q as [|x q IH]; intros v C I; cbn in *.
  - inversion C as [|? ? ? ? C']; subst; [|inversion C']. apply (chain_cons T u c); [exact I|constructor].
  - inversion C as [v' E|v' c' l I' C' E]; subst; [destruct q; discriminate|]. apply (chain_cons T x c'); [exact I'|]. apply IH; auto.
Qed.

(** The chains of the shortest-path tree are the beginnings and ends of the paths. *)
Lemma path_chain G s dist paths T : shortest_paths G s dist paths ->
  (forall u v, In (u, v) T <-> v <> s /\ exists q, entry paths v (q ++ [u; v])) ->
  forall v p, entry paths v p -> chain T s p.
Proof.
  intros (NP & K & W & SS & PC) I.
  assert (R : forall n v p, length p <= n -> entry paths v p -> chain T s p).
  { induction n as [|n IH]; intros v p L EP.
    - destruct (W v p EP) as (d & _ & D). destruct (dwalk_hd _ _ _ _ _ D) as (? & ->). cbn in L. lia.
    - destruct (Nat.eq_dec s v) as [<-|NS].
      + rewrite (entry_unique paths s p [s] NP EP SS). constructor.
      + destruct (W v p EP) as (d & _ & D). destruct (long_path _ _ _ _ _ D NS) as (q & u & ->).
        apply chain_snoc; [|apply I; split; [congruence|eauto]].
        apply (IH u (q ++ [u])); [rewrite app_length in *; cbn in *; lia|]. apply (PC v (q ++ [u; v]) u q EP eq_refl). }
  intros v p. apply (R (length p) v p (le_n _)).
Qed.

Lemma chain_path G s dist paths T depth : shortest_paths G s dist paths -> paths_within depth paths ->
  (forall u v, In (u, v) T -> exists q, entry paths u (q ++ [u]) /\ entry paths v (q ++ [u; v])) ->
  forall l, chain T s l -> length l <= depth.
Proof.
  intros (NP & K & W & SS & PC) PW TP.
  assert (X : forall v l, chain T v l -> forall p, entry paths v p -> length p + length l <= S depth).
  { induction 1 as [v|v c l I C IH]; intros p E.
    - specialize (PW _ _ E). cbn. lia.
    - destruct (TP _ _ I) as (q & EV & EC). rewrite (entry_unique paths v _ _ NP E EV).
      specialize (IH _ EC). rewrite app_length in *. cbn in *. lia. }
  intros l C. specialize (X _ _ C _ SS). cbn in X. lia.
Qed.

Lemma paths_withinb_ok depth paths : forallb (fun x : nat * list nat => Nat.leb (length (snd x)) depth) paths = true -> paths_within depth paths.
Proof.
  intros H v p I. rewrite forallb_forall in H. specialize (H _ I). cbn in H. apply Nat.leb_le in H. exact H.
Qed.

(** With fewer vertices than [depth] every path fits. *)
Lemma dist_within depth G s dist paths : shortest_distances G s dist -> shortest_paths G s dist paths -> length dist <= depth -> paths_within depth paths.
Proof.
  intros SD SP LE v p E. destruct (tree_edges_ok _ _ _ _ SP) as (T & _ & N & I).
  destruct (shortest_tree G s dist paths SD SP) as (T' & ET & RT & RE & TP).
  destruct (tree_edges_ok _ _ _ _ SP) as (T2 & ET2 & N2 & I2). assert (T2 = T') by congruence. subst T2.
  pose proof (path_chain _ _ _ _ _ SP I2 _ _ E) as C. apply (chain_length T' s RT) in C.
  assert (X : length (s :: map snd T') <= length (map fst dist)).
  { apply NoDup_incl_length.
    - constructor; apply RT.
    - intros x [<-|J]; [apply RE; constructor|]. apply in_map_iff in J. destruct J as ((a & c) & <- & J). apply RE.
      cbn. apply (desc_step _ _ a); [|exact J]. apply RT in J. exact J. }
  cbn in X. rewrite !map_length in X. lia.
Qed.

(** A path with more vertices than the recursion limit makes the algorithm fail. *)
Lemma suurballe_deep depth G s dist paths v p : directed G -> shortest_distances G s dist -> shortest_paths G s dist paths ->
  entry paths v p -> depth < length p ->
  suurballe_shortest_vertex_disjoint_paths depth G s dist paths = Throw RecursionErrorPy.
Proof.
  intros DG SD SP E LP. destruct (tree_edges_ok _ _ _ _ SP) as (T & ET & N & I).
  destruct (adjusted_ok G s dist DG SD) as (G' & EG & _ & _).
  unfold suurballe_shortest_vertex_disjoint_paths, suurballe_init. rewrite ET. cbn [bind]. rewrite EG. cbn [bind].
  unfold preorder. rewrite (preorder_deep T s p); [reflexivity|apply (path_chain _ _ _ _ _ SP I _ _ E)|exact LP].
Qed.

(** ** Checking shortest distances of concrete graphs *)

Definition arcw (G : dgraph) (u v : nat) : option Z :=
  match dget G u with Some l => dget l v | None => None end.

Fixpoint walkw (G : dgraph) (p : list nat) : option Z :=
  match p with
  | [] => None
  | [u] => Some 0%Z
  | u :: ((v :: _) as p') =>
    match arcw G u v, walkw G p' with Some w, Some z => Some (w + z)%Z | _, _ => None end
  end.

Lemma arcw_ok G u v w : arcw G u v = Some w -> arc G u v w.
Proof.
  unfold arcw. destruct (dget G u) as [l|] eqn:E; [|discriminate]. intros F.
  exists l. split; apply dget_In; assumption.
Qed.

Lemma walkw_ok G p : forall z u, walkw G (u :: p) = Some z -> dwalk G u (last (u :: p) u) (u :: p) z.
Proof.
  induction p as [|v p IH]; intros z u E.
  - cbn in *. inversion E. constructor.
  - cbn [walkw] in E. destruct (arcw G u v) as [w|] eqn:A; [|discriminate].
    change (match p with [] => Some 0%Z | v0 :: _ => _ end) with (walkw G (v :: p)) in E.
    destruct (walkw G (v :: p)) as [z'|] eqn:B; [|discriminate].
    inversion E; subst. econstructor; [apply arcw_ok; exact A|].
    pose proof (IH z' v B) as D.
    replace (last (u :: v :: p) u) with (last (v :: p) v); [exact D|].
    clear. revert v. induction p as [|x p IH]; intros v; [reflexivity|].
    change (last (v :: x :: p) v) with (last (x :: p) v). change (last (u :: v :: x :: p) u) with (last (v :: x :: p) u).
    change (last (v :: x :: p) u) with (last (x :: p) u).
    clear. revert x. induction p as [|y p IH]; intros x; [reflexivity|].
    change (last (x :: y :: p) v) with (last (y :: p) v). change (last (x :: y :: p) u) with (last (y :: p) u). apply IH.
Qed.

Definition walkb (G : dgraph) (s v : nat) (p : list nat) (d : Z) : bool :=
  match p with
  | u :: _ => Nat.eqb u s && Nat.eqb (last p u) v &&
              match walkw G p with Some z => Z.eqb z d | None => false end
  | [] => false
  end.

Lemma walkb_ok G s v p d : walkb G s v p d = true -> dwalk G s v p d.
Proof.
  unfold walkb. destruct p as [|u p]; [discriminate|]. intros H.
  apply andb_true_iff in H. destruct H as (H & H3). apply andb_true_iff in H. destruct H as (H1 & H2).
  apply Nat.eqb_eq in H1, H2. subst s v. destruct (walkw G (u :: p)) as [z|] eqn:E; [|discriminate].
  apply Z.eqb_eq in H3. subst. apply walkw_ok. exact E.
Qed.

Definition directedb (G : dgraph) : bool :=
  nodupb (map fst G) && forallb (fun '(u, l) => nodupb (map fst l) && forallb (fun e => memb (fst e) (map fst G)) l) G.

Lemma directedb_ok G : directedb G = true -> directed G.
Proof.
  unfold directedb. intros H. apply andb_true_iff in H. destruct H as (H1 & H2).
  rewrite forallb_forall in H2. split; [apply nodupb_ok; exact H1|]. split.
  - intros u l I. specialize (H2 _ I). cbn in H2. apply andb_true_iff in H2. apply nodupb_ok. tauto.
  - intros u v w (l & I & J). specialize (H2 _ I). cbn in H2. apply andb_true_iff in H2.
    destruct H2 as (_ & H2). rewrite forallb_forall in H2. specialize (H2 _ J). apply memb_In. exact H2.
Qed.

Definition asymmetricb (G : dgraph) : bool :=
  forallb (fun '(u, l) => forallb (fun e => match arcw G (fst e) u with Some _ => false | None => true end) l) G.

Lemma asymmetricb_ok G : directed G -> asymmetricb G = true -> asymmetric G.
Proof.
  intros (N & NL & _) H u v w w' (l & I & J) (l' & I' & J'). unfold asymmetricb in H.
  rewrite forallb_forall in H. specialize (H _ I). cbn in H. rewrite forallb_forall in H.
  specialize (H _ J). cbn in H. unfold arcw in H. rewrite (dget_some _ _ _ N I') in H.
  rewrite (dget_some _ _ _ (NL _ _ I') J') in H. discriminate.
Qed.

Definition shortestb (G : dgraph) (s : nat) (dist : list (nat * Z)) (paths : list (nat * list nat)) : bool :=
  nodupb (map fst dist) &&
  match dget dist s with Some 0%Z => true | _ => false end &&
  forallb (fun '(v, d) => match dget paths v with Some p => walkb G s v p d | None => false end) dist &&
  forallb (fun '(u, l) => match dget dist u with
    | None => true
    | Some du => forallb (fun '(v, w) => match dget dist v with
                          | Some dv => Z.leb dv (du + w)
                          | None => false end) l
    end) G &&
  nodupb (map fst paths) &&
  forallb (fun '(v, p) => match dget dist v with Some d => walkb G s v p d | None => false end) paths &&
  match dget paths s with Some [x] => Nat.eqb x s | _ => false end &&
  forallb (fun '(v, p) => match parent_of p with
    | Some u => match dget paths u with
                | Some q => if list_eq_dec Nat.eq_dec q (removelast p) then true else false
                | None => false end
    | None => true end) paths.

Lemma shortestb_ok G s dist paths : directed G -> shortestb G s dist paths = true ->
  shortest_distances G s dist /\ shortest_paths G s dist paths.
Proof.
  intros (NG & NL & _) H. unfold shortestb in H. rewrite !andb_true_iff in H.
  destruct H as (((((((Y1 & Y2) & Y3) & Y4) & Y5) & Y6) & Y7) & Y8).
  apply nodupb_ok in Y1, Y5. rewrite forallb_forall in Y3, Y4, Y6, Y8.
  assert (Y2' : entry dist s 0%Z).
  { destruct (dget dist s) as [[| |]|] eqn:E; try discriminate. apply dget_In. exact E. }
  assert (AR : forall u v w du, arc G u v w -> entry dist u du -> exists dv, entry dist v dv /\ (dv <= du + w)%Z).
  { intros u v w du (l & I & J) U. specialize (Y4 _ I). cbn in Y4.
    rewrite (dget_some _ _ _ Y1 U) in Y4. rewrite forallb_forall in Y4. specialize (Y4 _ J). cbn in Y4.
    destruct (dget dist v) as [dv|] eqn:E; [|discriminate]. exists dv. split; [apply dget_In; exact E|].
    apply Z.leb_le. exact Y4. }
  assert (WK : forall u v p z, dwalk G u v p z -> forall du, entry dist u du -> exists d, entry dist v d /\ (d <= du + z)%Z).
  { intros u v p z D. induction D as [u|u x v p w z A D IH]; intros du U.
    - exists du. split; [exact U|lia].
    - destruct (AR _ _ _ _ A U) as (dx & X & L). destruct (IH dx X) as (d & E & L'). exists d. split; [exact E|lia]. }
  split.
  - split; [exact Y1|]. split; [exact Y2'|]. split.
    + intros v d I. specialize (Y3 _ I). cbn in Y3. destruct (dget paths v) as [p|]; [|discriminate].
      exists p. apply walkb_ok. exact Y3.
    + intros v p z D. destruct (WK _ _ _ _ D 0%Z Y2') as (d & E & L). exists d. split; [exact E|lia].
  - split; [exact Y5|]. split; [|split; [|split]].
    + intros v. split; intros I; apply in_map_iff in I; destruct I as ((x & y) & <- & I); cbn.
      * specialize (Y6 _ I). cbn in Y6. destruct (dget dist x) as [d|] eqn:E; [|discriminate].
        apply dget_In in E. apply (in_map fst) in E. exact E.
      * specialize (Y3 _ I). cbn in Y3. destruct (dget paths x) as [d|] eqn:E; [|discriminate].
        apply dget_In in E. apply (in_map fst) in E. exact E.
    + intros v p I. specialize (Y6 _ I). cbn in Y6. destruct (dget dist v) as [d|] eqn:E; [|discriminate].
      exists d. split; [apply dget_In; exact E|]. apply walkb_ok. exact Y6.
    + destruct (dget paths s) as [[|x [|? ?]]|] eqn:E; try discriminate. apply Nat.eqb_eq in Y7. subst x.
      apply dget_In. exact E.
    + intros v p u q I ->. specialize (Y8 _ I). cbn in Y8. rewrite parent_of_snoc in Y8.
      destruct (dget paths u) as [q'|] eqn:E; [|discriminate].
      destruct (list_eq_dec Nat.eq_dec q' (removelast (q ++ [u; v]))) as [->|]; [|discriminate].
      apply dget_In in E. replace (removelast (q ++ [u; v])) with (q ++ [u]) in E; [exact E|].
      rewrite removelast_app by discriminate. reflexivity.
Qed.
