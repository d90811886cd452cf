(** * P_Labels: the labels of the tables *)
From Coq Require Import String QArith Ascii Sorting Permutation.
From Verif Require Import Base P_Base M_PyWrap M_RunAlg M_Compare M_Csv M_Tables M_Labels Spec_Labels.
Open Scope nat_scope.
Open Scope string_scope.

(** ** Order of strings *)
Lemma ascii_compare_refl : forall a, Ascii.compare a a = Eq.
Proof. intros. unfold Ascii.compare. apply N.compare_refl. Qed.

Lemma string_leb_trans : forall a b c, String.leb a b = true -> String.leb b c = true -> String.leb a c = true.
Proof.
  unfold String.leb. induction a as [|x a IH]; intros [|y b] [|z c]; simpl; auto; try discriminate.
  destruct (Ascii.compare x y) eqn:E1; destruct (Ascii.compare y z) eqn:E2; try discriminate; intros H1 H2.
  - apply Ascii.compare_eq_iff in E1, E2. subst. rewrite ascii_compare_refl. exact (IH _ _ H1 H2).
  - apply Ascii.compare_eq_iff in E1. subst. rewrite E2. reflexivity.
  - apply Ascii.compare_eq_iff in E2. subst. rewrite E1. reflexivity.
  - unfold Ascii.compare in *. rewrite (N.compare_lt_iff) in *.
    assert (N_of_ascii x < N_of_ascii z)%N by lia. apply N.compare_lt_iff in H. rewrite H. reflexivity.
Qed.

Lemma codes_leb_refl : forall a, codes_leb a a = true.
Proof. induction a; simpl; auto. rewrite Nat.eqb_refl, IHa. apply orb_true_r. Qed.
Lemma codes_leb_total : forall a b, codes_leb a b = true \/ codes_leb b a = true.
Proof.
  induction a as [|x a IH]; intros [|y b]; simpl; auto.
  destruct (Nat.ltb_spec x y); auto. destruct (Nat.ltb_spec y x); auto. assert (x = y) by lia. subst.
  rewrite Nat.eqb_refl. simpl. apply IH.
Qed.
Lemma codes_leb_trans : forall a b c, codes_leb a b = true -> codes_leb b c = true -> codes_leb a c = true.
Proof.
  induction a as [|x a IH]; intros [|y b] [|z c]; simpl; auto; try discriminate.
  destruct (Nat.ltb_spec x y), (Nat.ltb_spec y z), (Nat.ltb_spec x z), (Nat.eqb_spec x y), (Nat.eqb_spec y z), (Nat.eqb_spec x z);
    simpl; intros; try lia; try discriminate; auto. eapply IH; eauto.
Qed.
Lemma codes_leb_antisym : forall a b, codes_leb a b = true -> codes_leb b a = true -> a = b.
Proof.
  induction a as [|x a IH]; intros [|y b]; simpl; auto; try discriminate.
  destruct (Nat.ltb_spec x y), (Nat.ltb_spec y x), (Nat.eqb_spec x y), (Nat.eqb_spec y x);
    simpl; intros; try lia; try discriminate; auto. subst. f_equal. auto.
Qed.

(** ** Sorting *)
Section SORT.
  Variables (A : Type) (leb : A -> A -> bool).
  Hypothesis total : forall a b, leb a b = true \/ leb b a = true.
  Hypothesis trans : forall a b c, leb a b = true -> leb b c = true -> leb a c = true.

  Lemma insert_perm : forall x l, Permutation (insert_by leb x l) (x :: l).
  Proof.
    induction l as [|y l IH]; simpl; auto. destruct (leb x y); auto.
    rewrite IH. apply perm_swap.
  Qed.
  Lemma sort_perm : forall l, Permutation (sort_by leb l) l.
  Proof. induction l; simpl; auto. rewrite insert_perm. auto. Qed.

  Lemma insert_sorted : forall x l, StronglySorted (fun a b => leb a b = true) l ->
    StronglySorted (fun a b => leb a b = true) (insert_by leb x l).
  Proof.
    induction 1 as [|y l S IH F]; simpl.
    - constructor; constructor.
    - destruct (leb x y) eqn:E.
      + constructor; [constructor; auto|]. constructor; auto. eapply Forall_impl; [|exact F]. simpl. intros. eapply trans; eauto.
      + constructor; auto. eapply Permutation_Forall; [symmetry; apply insert_perm|]. constructor; auto.
        destruct (total x y); congruence.
  Qed.
  Lemma sort_sorted : forall l, StronglySorted (fun a b => leb a b = true) (sort_by leb l).
  Proof. induction l; simpl; [constructor|]. apply insert_sorted. auto. Qed.
End SORT.

Lemma sorted_unique : forall A (leb : A -> A -> bool) (lt : A -> A -> Prop),
  (forall a b, lt a b -> leb b a = true -> False) ->
  forall t l, StronglySorted lt t -> StronglySorted (fun a b => leb a b = true) l -> Permutation l t -> l = t.
Proof.
  intros A leb lt C. induction t as [|y t IH]; intros l St Sl P.
  - apply Permutation_nil. symmetry in P. exact P.
  - destruct l as [|x l]; [apply Permutation_nil in P; discriminate|].
    inversion St as [|? ? St' Ft]; subst. inversion Sl as [|? ? Sl' Fl]; subst.
    assert (E : x = y).
    { assert (Ix : In x (y :: t)) by (eapply Permutation_in; [exact P|left; reflexivity]).
      assert (Iy : In y (x :: l)) by (eapply Permutation_in; [symmetry; exact P|left; reflexivity]).
      destruct Ix as [Ix|Ix]; [congruence|]. destruct Iy as [Iy|Iy]; [congruence|]. exfalso.
      rewrite Forall_forall in Ft, Fl. exact (C y x (Ft x Ix) (Fl y Iy)). }
    subst y. f_equal. apply IH; auto. eapply Permutation_cons_inv. exact P.
Qed.

Lemma sorted_flat_map : forall A B (R : A -> A -> Prop) (lt : B -> B -> Prop) (g : A -> list B) l,
  StronglySorted R l -> (forall a, In a l -> StronglySorted lt (g a)) ->
  (forall a b x y, R a b -> In x (g a) -> In y (g b) -> lt x y) -> StronglySorted lt (flat_map g l).
Proof.
  intros A B R lt g l. induction 1 as [|a l S IH F]; intros In1 Cr; simpl; [constructor|].
  assert (APP : forall u v, StronglySorted lt u -> StronglySorted lt v -> (forall x y, In x u -> In y v -> lt x y) ->
    StronglySorted lt (u ++ v)).
  { clear. induction 1 as [|x u S IH F]; simpl; auto. intros Sv X. constructor.
    - apply IH; [exact Sv|]. intros ? ? I J. apply X; [right; exact I|exact J].
    - apply Forall_app. split; [exact F|]. apply Forall_forall. intros ? J. apply X; [left; reflexivity|exact J]. }
  apply APP.
  - apply In1. now left.
  - apply IH; auto. intros. apply In1. now right.
  - intros x y Ix Iy. apply in_flat_map in Iy. destruct Iy as [b [Ib Iy]]. rewrite Forall_forall in F.
    eapply Cr; eauto.
Qed.

Lemma sorted_map : forall A B (R : B -> B -> Prop) (f : A -> B) l,
  StronglySorted (fun a b => R (f a) (f b)) l -> StronglySorted R (map f l).
Proof.
  induction 1; simpl; constructor; auto. apply Forall_map. exact H0.
Qed.

Lemma flat_map_swap : forall A B C (g : A -> B -> C) (u : list A) (v : list B),
  Permutation (flat_map (fun a => map (fun b => g a b) v) u) (flat_map (fun b => map (fun a => g a b) u) v).
Proof.
  induction u as [|a u IH]; intros v; simpl.
  - induction v; simpl; auto.
  - rewrite IH. clear IH. induction v as [|b v IH]; simpl; auto.
    apply perm_skip. rewrite <- IH. rewrite Permutation_app_comm. rewrite <- app_assoc. apply Permutation_app_head.
    apply Permutation_app_comm.
Qed.

(** ** Numbering *)
Lemma index_of_nth : forall l i s, NoDup l -> nth_error l i = Some s -> index_of s l = i.
Proof.
  induction l as [|x l IH]; intros i s N E; [destruct i; discriminate|]. inversion N; subst. destruct i; simpl in *.
  - injection E as ->. rewrite String.eqb_refl. reflexivity.
  - destruct (String.eqb_spec x s) as [-> |]; [exfalso; apply H1; eapply nth_error_In; eauto|].
    f_equal. apply IH; auto.
Qed.

Lemma combine_seq_map : forall A B (l : list A) (g : nat -> A -> B) k (h : A -> nat),
  (forall i x, nth_error l i = Some x -> h x = k + i) ->
  map (fun ix => g (fst ix) (snd ix)) (combine (seq k (List.length l)) l) = map (fun x => g (h x) x) l.
Proof.
  induction l as [|x l IH]; intros g k h H; simpl; auto. f_equal.
  - rewrite (H 0 x eq_refl), Nat.add_0_r. reflexivity.
  - apply IH. intros i y E. rewrite Nat.add_succ_comm. apply H. exact E.
Qed.

Lemma numbered_map : forall B (l : list string) (g : nat -> string -> B), NoDup l ->
  map (fun ix => g (fst ix) (snd ix)) (numbered l) = map (fun x => g (index_of x l) x) l.
Proof.
  intros. apply combine_seq_map. intros i x E. simpl. apply index_of_nth; auto.
Qed.

Lemma flat_map_map : forall A B C (f : A -> B) (g : B -> list C) l, flat_map g (map f l) = flat_map (fun x => g (f x)) l.
Proof. induction l; simpl; congruence. Qed.
Lemma map_flat_map : forall A B C (f : B -> C) (g : A -> list B) l, map f (flat_map g l) = flat_map (fun x => map f (g x)) l.
Proof. induction l; simpl; auto. rewrite map_app. congruence. Qed.
Lemma flat_map_ext_in : forall A B (f g : A -> list B) l, (forall a, In a l -> f a = g a) -> flat_map f l = flat_map g l.
Proof. induction l; simpl; intros; auto. f_equal; auto. Qed.

Lemma numbered_flat_map : forall B (l : list string) (g : nat -> string -> list B), NoDup l ->
  flat_map (fun ix => g (fst ix) (snd ix)) (numbered l) = flat_map (fun x => g (index_of x l) x) l.
Proof. intros. rewrite !flat_map_concat_map. f_equal. apply (numbered_map _ l g H). Qed.

Lemma numbered_sorted : forall A (l : list A) k, StronglySorted (fun a b => fst a < fst b) (combine (seq k (List.length l)) l).
Proof.
  induction l as [|x l IH]; intros k; simpl; constructor; auto.
  apply Forall_forall. intros [i y] I. apply in_combine_l in I. apply in_seq in I. simpl. lia.
Qed.

Definition code_lt {A} (a b : list nat * A) : Prop := codes_leb (fst a) (fst b) = true /\ fst a <> fst b.

Definition sorted_strings := sort_by String.leb.
Lemma sorted_strings_perm : forall l, Permutation (sorted_strings l) l.
Proof. intros. apply sort_perm. Qed.

(** The columns after unstacking, swapping and sorting. *)
Lemma sort_unstack_cols : forall A name values removed (f : string -> string -> A), NoDup values -> NoDup removed ->
  m_cols (sort_index (swaplevel (unstack name values removed f))) =
  flat_map (fun jr => map (fun iv => ([fst jr; fst iv], f (snd iv) (snd jr))) (numbered (sorted_strings values)))
    (numbered (sorted_strings removed)).
Proof.
  intros A name values removed f Nv Nr. unfold sort_index, swaplevel, unstack. cbn [m_cols m_levels m_names swap2].
  set (sv := sort_by String.leb values). set (sr := sort_by String.leb removed).
  assert (Pv : Permutation sv values) by apply sort_perm. assert (Pr : Permutation sr removed) by apply sort_perm.
  assert (Nsv : NoDup sv) by (eapply Permutation_NoDup; [symmetry; exact Pv|exact Nv]).
  assert (Nsr : NoDup sr) by (eapply Permutation_NoDup; [symmetry; exact Pr|exact Nr]).
  set (G := fun v r => ([index_of r sr; index_of v sv], f v r) : list nat * A).
  assert (EL : map (fun col => (map (fun lk => index_of (nth (snd lk) (fst lk) "") (sort_by String.leb (fst lk)))
        (combine [removed; values] (fst col)), snd col))
      (map (fun col => (swap2 (fst col), snd col)) (flat_map (fun iv => map (fun jr => ([fst iv; fst jr], f (snd iv) (snd jr))) (numbered removed)) (numbered values)))
    = flat_map (fun v => map (fun r => G v r) removed) values).
  { rewrite !map_flat_map.
    rewrite (flat_map_ext_in _ _ _ (fun iv => map (fun jr => ([index_of (nth (fst jr) removed "") sr; index_of (nth (fst iv) values "") sv], f (snd iv) (snd jr))) (numbered removed))).
    2:{ intros a _. rewrite !map_map. reflexivity. }
    rewrite (numbered_flat_map _ values (fun i v => map (fun jr => ([index_of (nth (fst jr) removed "") sr; index_of (nth i values "") sv], f v (snd jr))) (numbered removed)) Nv).
    apply flat_map_ext_in. intros v Iv.
    rewrite (numbered_map _ removed (fun j r => ([index_of (nth j removed "") sr; index_of (nth (index_of v values) values "") sv], f v r)) Nr).
    apply map_ext_in. intros r Ir. unfold G.
    apply In_nth_error in Iv, Ir. destruct Iv as [i Ei], Ir as [j Ej].
    rewrite (index_of_nth _ _ _ Nv Ei), (index_of_nth _ _ _ Nr Ej), (nth_error_nth _ _ _ Ei), (nth_error_nth _ _ _ Ej). reflexivity. }
  rewrite EL.
  assert (ET : flat_map (fun jr => map (fun iv => ([fst jr; fst iv], f (snd iv) (snd jr))) (numbered sv)) (numbered sr)
     = flat_map (fun r => map (fun v => G v r) sv) sr).
  { rewrite (numbered_flat_map _ sr (fun j r => map (fun iv => ([j; fst iv], f (snd iv) r)) (numbered sv)) Nsr).
    apply flat_map_ext_in. intros r _.
    rewrite (numbered_map _ sv (fun i v => ([index_of r sr; i], f v r)) Nsv). reflexivity. }
  change (sorted_strings values) with sv. change (sorted_strings removed) with sr.
  apply (sorted_unique _ (fun a b => codes_leb (fst a) (fst b)) code_lt).
  - intros a b [L N] L'. apply N. apply codes_leb_antisym; auto.
  - apply (sorted_flat_map _ _ (fun a b => fst a < fst b)).
    + apply numbered_sorted.
    + intros jr _. apply sorted_map. eapply StronglySorted_ind with (P := fun l => StronglySorted (fun a b => code_lt ([fst jr; fst a], f (snd a) (snd jr)) ([fst jr; fst b], f (snd b) (snd jr))) l);
        [constructor| |apply (numbered_sorted _ sv 0)].
      intros a l _ S F. constructor; auto. eapply Forall_impl; [|exact F]. intros b Lt. unfold code_lt. simpl in *. split.
      * rewrite Nat.ltb_irrefl, Nat.eqb_refl. simpl. assert (X : Nat.ltb (fst a) (fst b) = true) by (apply Nat.ltb_lt; exact Lt). rewrite X. reflexivity.
      * intros E. injection E as E. lia.
    + intros a b x y Lt Ix Iy. apply in_map_iff in Ix, Iy. destruct Ix as [i [<- _]], Iy as [j [<- _]]. unfold code_lt. simpl. split.
      * assert (X : Nat.ltb (fst a) (fst b) = true) by (apply Nat.ltb_lt; exact Lt). rewrite X. reflexivity.
      * intros E. injection E as E1 E2. lia.
  - apply sort_sorted; [intros; apply codes_leb_total|intros a b c; apply codes_leb_trans].
  - transitivity (flat_map (fun v => map (fun r => G v r) removed) values); [apply sort_perm|]. rewrite ET.
    transitivity (flat_map (fun r => map (fun v => G v r) values) removed); [apply flat_map_swap|].
    transitivity (flat_map (fun r => map (fun v => G v r) values) sr).
    + apply Permutation_flat_map. symmetry. exact Pr.
    + clearbody G. clear -Pv. generalize sr. clear sr. induction sr as [|r l IH]; simpl; auto.
      apply Permutation_app; auto. apply Permutation_map. symmetry. exact Pv.
Qed.

(** ** Names *)
Lemma lookup_in : forall d s t, lookup d s = Some t -> In (s, t) d.
Proof.
  induction d as [|[k x] d IH]; simpl; intros s t E; [discriminate|].
  destruct (String.eqb_spec k s) as [-> |]; [injection E as ->; now left|right; auto].
Qed.
Lemma lookup_none : forall d s t, lookup d s = None -> ~ In (s, t) d.
Proof.
  induction d as [|[k x] d IH]; simpl; intros s t E I; auto.
  destruct (String.eqb_spec k s) as [-> |N]; [discriminate|]. destruct I as [I|I]; [congruence|exact (IH _ _ E I)].
Qed.
Lemma lookup_unique : forall d s t, NoDup (map fst d) -> In (s, t) d -> lookup d s = Some t.
Proof.
  induction d as [|[k x] d IH]; simpl; intros s t N I; [easy|]. inversion N; subst.
  destruct I as [I|I].
  - injection I as -> ->. rewrite String.eqb_refl. reflexivity.
  - destruct (String.eqb_spec k s) as [-> |]; auto. exfalso. apply H1. apply (in_map fst) in I. exact I.
Qed.

Definition rename_by (d : list (string * string)) (s : string) : string := match lookup d s with Some t => t | None => s end.
Lemma called_by : forall d s, called d s (rename_by d s).
Proof.
  intros d s. unfold rename_by, called. destruct (lookup d s) eqn:E.
  - left. apply lookup_in. exact E.
  - right. split; auto. intros t'. apply lookup_none. exact E.
Qed.
Lemma called_eq : forall d s t, NoDup (map fst d) -> called d s t -> t = rename_by d s.
Proof.
  intros d s t N [I|[-> No]]; unfold rename_by.
  - rewrite (lookup_unique _ _ _ N I). reflexivity.
  - destruct (lookup d s) eqn:E; auto. exfalso. exact (No _ (lookup_in _ _ _ E)).
Qed.

Definition no_dup_strings (l : list string) : bool :=
  (fix go l := match l with [] => true | x :: r => negb (existsb (String.eqb x) r) && go r end) l.
Lemma no_dup_strings_ok : forall l, no_dup_strings l = true -> NoDup l.
Proof.
  induction l as [|x l IH]; intros H; [constructor|]. simpl in H. apply andb_true_iff in H. destruct H as [H1 H2]. constructor; auto.
  intros I. apply negb_true_iff in H1. assert (E : existsb (String.eqb x) l = true).
  { apply existsb_exists. exists x. split; auto. apply String.eqb_refl. } congruence.
Qed.
Lemma pretty_nodup : NoDup (map fst pretty_names).
Proof. apply no_dup_strings_ok. vm_compute. reflexivity. Qed.
Lemma pretty_values_nodup : NoDup (map snd pretty_names).
Proof. apply no_dup_strings_ok. vm_compute. reflexivity. Qed.

Lemma pretty_called : forall s, called pretty_names s (make_column_name_pretty s).
Proof. intros s. apply (called_by pretty_names s). Qed.
Lemma pretty_eq : forall s t, called pretty_names s t -> t = make_column_name_pretty s.
Proof. intros s t C. apply (called_eq _ _ _ pretty_nodup C). Qed.

Lemma pretty_distinct : forall s s' t t', called pretty_names s t -> called pretty_names s' t' -> s <> s' ->
  (forall k, ~ In (k, s) pretty_names) -> (forall k, ~ In (k, s') pretty_names) -> t <> t'.
Proof.
  intros s s' t t' [I|[-> No]] [I'|[-> No']] N F F' E.
  - subst t'. apply N. pose proof pretty_values_nodup as ND. clear -I I' ND. revert I I' ND. generalize pretty_names as d.
    induction d as [|[k x] d IH]; simpl; intros I I' ND; [easy|]. inversion ND; subst.
    destruct I as [I|I], I' as [I'|I']; try congruence; auto.
    + injection I as -> ->. exfalso. apply H1. apply (in_map snd) in I'. exact I'.
    + injection I' as -> ->. exfalso. apply H1. apply (in_map snd) in I. exact I.
  - subst t. exact (F' _ I).
  - subst t'. exact (F _ I').
  - congruence.
Qed.

(** ** Columns of several levels *)
Definition level_of {A} (l : nat) (hs : list (list string * A)) : list string := map (fun h => nth l (fst h) "") hs.
Definition is_cc (names : list (option string)) (l : nat) : bool :=
  match nth_error names l with Some o => is_name "cc_name" o | None => false end.
Lemma is_cc_iff : forall names l, is_cc names l = true <-> cc_level names l.
Proof.
  intros names l. unfold is_cc, cc_level, is_name. destruct (nth_error names l) as [[s|]|]; split; try discriminate; intros H.
  - apply String.eqb_eq in H. congruence.
  - injection H as ->. reflexivity.
Qed.

Lemma upd_length : forall A (v : list A) i a, List.length (upd v i a) = List.length v.
Proof. induction v; destruct i; simpl; auto. Qed.
Lemma nth_upd : forall A (v : list A) i j a, nth_error (upd v i a) j = if Nat.eqb i j then (if Nat.ltb i (List.length v) then Some a else None) else nth_error v j.
Proof.
  induction v as [|x v IH]; intros i j a; simpl.
  - destruct (Nat.eqb_spec i j); auto. destruct j; reflexivity.
  - destruct i, j; simpl; auto. rewrite IH. destruct (Nat.eqb i j); auto.
Qed.

Lemma level_values : forall A (m : midx A) hs levels l, headed m hs -> l < List.length (m_levels m) ->
  nth_error levels l = nth_error (m_levels m) l ->
  get_level_values (mkMidx (m_names m) levels (m_cols m)) l = Ok (level_of l hs).
Proof.
  intros A m hs levels l H L E. unfold get_level_values, headed in *. cbn [m_cols m_levels]. revert H.
  generalize (m_cols m). intros cols H. induction H as [|col h cols hs [Hc [Hl Hn]] H IH]; simpl; auto.
  assert (X : nth_error (fst h) l = Some (nth l (fst h) "")) by (apply nth_error_nth'; lia).
  destruct (Hn _ _ X) as [k [lev [E1 [E2 E3]]]]. rewrite E1.
  rewrite (nth_error_nth _ _ [] (eq_trans E E2)) in IH |- *. rewrite E3. cbn [bind]. rewrite IH. reflexivity.
Qed.

Definition new_level {A} (m : midx A) (hs : list (list string * A)) (l : nat) : list string :=
  if is_cc (m_names m) l then nth l (m_levels m) [] else map make_column_name_pretty (level_of l hs).

Lemma pretty_multi : forall A (m : midx A) hs, headed m hs -> exists m',
  foldM (fun m level =>
        if match nth_error (m_names m) level with Some o => is_name "cc_name" o | None => false end then Ok m
        else
          do labels <- get_level_values m level;
          Ok (set_levels m level (map make_column_name_pretty labels))) (seq 0 (List.length (m_levels m))) m = Ok m' /\
  m_names m' = m_names m /\ m_cols m' = m_cols m /\ List.length (m_levels m') = List.length (m_levels m) /\
  forall l, l < List.length (m_levels m) -> nth_error (m_levels m') l = Some (new_level m hs l).
Proof.
  intros A m hs H. set (n := List.length (m_levels m)).
  assert (G : forall k j mm, j + k = n -> m_names mm = m_names m -> m_cols mm = m_cols m -> List.length (m_levels mm) = n ->
     (forall l, l < j -> nth_error (m_levels mm) l = Some (new_level m hs l)) ->
     (forall l, j <= l -> nth_error (m_levels mm) l = nth_error (m_levels m) l) -> exists m',
     foldM (fun m level =>
        if match nth_error (m_names m) level with Some o => is_name "cc_name" o | None => false end then Ok m
        else
          do labels <- get_level_values m level;
          Ok (set_levels m level (map make_column_name_pretty labels))) (seq j k) mm = Ok m' /\
     m_names m' = m_names m /\ m_cols m' = m_cols m /\ List.length (m_levels m') = n /\
     forall l, l < n -> nth_error (m_levels m') l = Some (new_level m hs l)).
  { induction k as [|k IH]; intros j mm E N C L Lo Hi.
    - exists mm. simpl. repeat split; auto. intros l Hl. apply Lo. lia.
    - cbn [seq foldM]. fold (is_cc (m_names mm) j). rewrite N. destruct (is_cc (m_names m) j) eqn:CC.
      + simpl. apply IH; auto; try lia.
        * intros l Hl. destruct (Nat.eq_dec l j) as [-> |]; [|apply Lo; lia]. rewrite Hi by lia. unfold new_level. rewrite CC.
          apply nth_error_nth'. fold n. lia.
        * intros l Hl. apply Hi. lia.
      + destruct mm as [nn ll cc]. simpl in N, C, L, Lo, Hi. subst nn cc.
        rewrite (level_values A m hs ll j H) by (try apply Hi; fold n; lia).
        cbn [bind]. apply IH; cbn [set_levels m_names m_cols m_levels]; auto; try lia.
        * rewrite upd_length. exact L.
        * intros l Hl. rewrite nth_upd. destruct (Nat.eqb_spec j l) as [<- |].
          { assert (X : Nat.ltb j (List.length ll) = true) by (apply Nat.ltb_lt; lia). rewrite X. unfold new_level. rewrite CC. reflexivity. }
          apply Lo. lia.
        * intros l Hl. rewrite nth_upd. destruct (Nat.eqb_spec j l); [lia|]. apply Hi. lia. }
  apply (G n 0 m); auto. intros l Hl. lia.
Qed.

Definition rename_head {A} (names : list (option string)) (h : list string * A) : list string * A :=
  (map (fun ls => if is_cc names (fst ls) then snd ls else make_column_name_pretty (snd ls)) (numbered (fst h)), snd h).

Lemma nth_numbered : forall A (l : list A) k i, nth_error (combine (seq k (List.length l)) l) i = option_map (fun x => (k + i, x)) (nth_error l i).
Proof.
  induction l as [|x l IH]; intros k i; [destruct i; reflexivity|]. destruct i; simpl.
  - rewrite Nat.add_0_r. reflexivity.
  - rewrite IH. rewrite Nat.add_succ_r. reflexivity.
Qed.

Lemma rename_head_nth : forall A names (h : list string * A) l,
  nth_error (fst (rename_head names h)) l = option_map (fun s => if is_cc names l then s else make_column_name_pretty s) (nth_error (fst h) l).
Proof.
  intros. unfold rename_head, numbered. cbn [fst]. rewrite nth_error_map, nth_numbered. destruct (nth_error (fst h) l); reflexivity.
Qed.
Lemma rename_head_length : forall A names (h : list string * A), List.length (fst (rename_head names h)) = List.length (fst h).
Proof. intros. unfold rename_head, numbered. cbn [fst]. rewrite map_length, combine_length, seq_length. lia. Qed.
Lemma rename_head_ok : forall A names (h : list string * A), renamed names h (rename_head names h).
Proof.
  intros A names h. split; [reflexivity|]. split; [apply rename_head_length|]. intros l s E.
  rewrite rename_head_nth, E. simpl. eexists. split; [reflexivity|]. split; intros C.
  - apply is_cc_iff in C. rewrite C. reflexivity.
  - destruct (is_cc names l) eqn:X; [apply is_cc_iff in X; contradiction|]. apply pretty_called.
Qed.
Lemma renamed_eq : forall A names (h h' : list string * A), renamed names h h' -> h' = rename_head names h.
Proof.
  intros A names [h x] [h' x'] [E [L R]]. simpl in *. subst x'. unfold rename_head. f_equal.
  change (map (fun ls => if is_cc names (fst ls) then snd ls else make_column_name_pretty (snd ls)) (numbered (fst (h, x))))
    with (fst (rename_head names (h, x))).
  assert (X : forall i, nth_error h' i = nth_error (fst (rename_head names (h, x))) i).
  { intros i. rewrite rename_head_nth. simpl. destruct (nth_error h i) as [s|] eqn:Ei; simpl.
    - destruct (R _ _ Ei) as [s' [E' [C1 C2]]]. rewrite E'. f_equal. destruct (is_cc names i) eqn:CC.
      + apply C1. apply is_cc_iff. exact CC.
      + apply pretty_eq. apply C2. rewrite <- is_cc_iff. congruence.
    - apply nth_error_None. apply nth_error_None in Ei. lia. }
  apply nth_ext with (d := "") (d' := "").
  - rewrite rename_head_length. simpl. exact L.
  - intros i Hi. specialize (X i). assert (Y := nth_error_nth' h' "" Hi). rewrite Y in X. symmetry in X.
    symmetry. apply nth_error_nth. exact X.
Qed.

Lemma headed_nth : forall A (m : midx A) hs, headed m hs <-> (List.length hs = List.length (m_cols m) /\
  forall i col h, nth_error (m_cols m) i = Some col -> nth_error hs i = Some h ->
    snd h = snd col /\ List.length (fst h) = List.length (m_levels m) /\
    forall l s, nth_error (fst h) l = Some s ->
      exists k lev, nth_error (fst col) l = Some k /\ nth_error (m_levels m) l = Some lev /\ nth_error lev k = Some s).
Proof.
  intros A m hs. unfold headed. generalize (m_cols m). intros cols. split.
  - induction 1 as [|col h cols hs H F [L IH]]; simpl; [split; auto; intros [|i]; discriminate|]. split; [lia|].
    intros [|i] c h' E1 E2; simpl in *; [|eapply IH; eauto]. injection E1 as <-. injection E2 as <-. exact H.
  - revert cols. induction hs as [|h hs IH]; intros [|col cols] [L H]; simpl in L; try lia; constructor.
    + exact (H 0 col h eq_refl eq_refl).
    + apply IH. split; [lia|]. intros i c h' E1 E2. exact (H (S i) c h' E1 E2).
Qed.

Lemma Forall2_nth : forall A B (R : A -> B -> Prop) u v, Forall2 R u v ->
  forall i a, nth_error u i = Some a -> exists b, nth_error v i = Some b /\ R a b.
Proof. induction 1; intros [|i] z E; simpl in *; try discriminate; [injection E as <-; eauto|eauto]. Qed.

Lemma columns_multi : forall m hs, headed m hs -> exists m', pretty_columns (Multi m) = Ok (Multi m') /\
  m_names m' = m_names m /\ m_cols m' = m_cols m /\
  ((exists hs', headed m' hs' /\ Forall2 (renamed (m_names m)) hs hs') <-> codes_are_columns m hs).
Proof.
  intros m hs H. destruct (pretty_multi _ m hs H) as [m' [E [N [C [L NEW]]]]]. exists m'.
  unfold pretty_columns. rewrite E. cbn [bind]. split; [reflexivity|]. split; [exact N|]. split; [exact C|].
  pose proof (proj1 (headed_nth _ m hs) H) as [Lh Hh]. split.
  - intros [hs' [H' R]] i col h l k s Ec Eh NC Ek Es.
    destruct (Forall2_nth _ _ _ _ _ R _ _ Eh) as [h' [Eh' Rh]].
    destruct (proj1 (headed_nth _ m' hs') H') as [_ Hn]. rewrite C in Hn. destruct (Hn _ _ _ Ec Eh') as [_ [_ Hl]].
    destruct Rh as [_ [_ Rl]]. destruct (Rl _ _ Es) as [s' [Es' [_ Cs]]]. specialize (Cs NC).
    destruct (Hl _ _ Es') as [k' [lev [X1 [X2 X3]]]]. assert (k' = k) by congruence. subst k'.
    destruct (Hh _ _ _ Ec Eh) as [_ [Lh' _]].
    assert (Ll : l < List.length (m_levels m)). { rewrite <- Lh'. apply nth_error_Some. congruence. }
    rewrite (NEW l Ll) in X2. injection X2 as <-. unfold new_level in X3.
    destruct (is_cc (m_names m) l) eqn:CC; [apply is_cc_iff in CC; contradiction|].
    rewrite nth_error_map in X3. destruct (nth_error (level_of l hs) k) as [u|] eqn:Eu; [|discriminate]. simpl in X3. injection X3 as X3.
    unfold level_of in Eu. rewrite nth_error_map in Eu. destruct (nth_error hs k) as [hk|] eqn:Ehk; [|discriminate]. simpl in Eu. injection Eu as Eu.
    exists hk, u, s'. split; [reflexivity|].
    assert (Lk : List.length (fst hk) = List.length (m_levels m)).
    { assert (K : k < List.length (m_cols m)). { rewrite <- Lh. apply nth_error_Some. congruence. }
      destruct (nth_error (m_cols m) k) as [ck|] eqn:Eck; [|apply nth_error_None in Eck; lia]. exact (proj1 (proj2 (Hh _ _ _ Eck Ehk))). }
    split; [rewrite <- Eu; apply nth_error_nth'; lia|]. split; [exact Cs|]. rewrite <- X3. apply pretty_called.
  - intros K. exists (map (rename_head (m_names m)) hs). split.
    + apply headed_nth. rewrite C, map_length. split; [exact Lh|]. intros i col h' Ec Eh'. rewrite nth_error_map in Eh'.
      destruct (nth_error hs i) as [h|] eqn:Eh; [|discriminate]. simpl in Eh'. injection Eh' as <-.
      destruct (Hh _ _ _ Ec Eh) as [S1 [S2 S3]]. split; [exact S1|]. split; [rewrite rename_head_length, L; exact S2|].
      intros l s'. rewrite rename_head_nth. destruct (nth_error (fst h) l) as [s|] eqn:Es; [|discriminate]. simpl. intros E'. injection E' as <-.
      destruct (S3 _ _ Es) as [k [lev [X1 [X2 X3]]]].
      assert (Ll : l < List.length (m_levels m)). { rewrite <- S2. apply nth_error_Some. congruence. }
      exists k, (new_level m hs l). split; [exact X1|]. split; [apply NEW; exact Ll|]. unfold new_level.
      destruct (is_cc (m_names m) l) eqn:CC.
      * rewrite (nth_error_nth _ _ [] X2). exact X3.
      * assert (NC : ~ cc_level (m_names m) l) by (rewrite <- is_cc_iff; congruence).
        destruct (K i col h l k s Ec Eh NC X1 Es) as [hk [sk [t [Y1 [Y2 [Y3 Y4]]]]]].
        rewrite nth_error_map. unfold level_of. rewrite nth_error_map, Y1. simpl. rewrite (nth_error_nth _ _ "" Y2).
        rewrite <- (pretty_eq _ _ Y4), <- (pretty_eq _ _ Y3). reflexivity.
    + clear. induction hs; simpl; constructor; auto. apply rename_head_ok.
Qed.

(** Columns that are unstacked, swapped and sorted keep their labels. *)
Definition sorted_heads {A} (values removed : list string) (f : string -> string -> A) : list (list string * A) :=
  flat_map (fun r => map (fun v => ([r; v], f v r)) (sorted_strings values)) (sorted_strings removed).

Lemma numbered_snd_map : forall A B (l : list A) (g : A -> B), map (fun ix => g (snd ix)) (numbered l) = map g l.
Proof.
  intros A B l g. unfold numbered. generalize 0. induction l as [|x l IH]; intros k; simpl; [reflexivity|]. f_equal. apply IH.
Qed.

Lemma Forall2_flat_map : forall A B C (R : B -> C -> Prop) (f : A -> list B) (g : A -> list C) l,
  (forall a, In a l -> Forall2 R (f a) (g a)) -> Forall2 R (flat_map f l) (flat_map g l).
Proof. induction l; simpl; intros; [constructor|]. apply Forall2_app; auto. Qed.
Lemma Forall2_maps : forall A B C (R : B -> C -> Prop) (f : A -> B) (g : A -> C) l,
  (forall a, In a l -> R (f a) (g a)) -> Forall2 R (map f l) (map g l).
Proof. induction l; simpl; intros; constructor; auto. Qed.

Lemma numbered_in : forall A (l : list A) i x, In (i, x) (numbered l) -> nth_error l i = Some x.
Proof.
  intros A l i x I. apply In_nth_error in I. destruct I as [n E]. unfold numbered in E. rewrite nth_numbered in E.
  destruct (nth_error l n) eqn:En; [|discriminate]. simpl in E. injection E as <- <-. exact En.
Qed.

Lemma sort_unstack_headed : forall A name values removed (f : string -> string -> A), NoDup values -> NoDup removed ->
  headed (sort_index (swaplevel (unstack name values removed f))) (sorted_heads values removed f).
Proof.
  intros A name values removed f Nv Nr. unfold headed. rewrite sort_unstack_cols by auto.
  unfold sorted_heads.
  rewrite (flat_map_concat_map _ (sorted_strings removed)), <- numbered_snd_map, <- flat_map_concat_map.
  apply Forall2_flat_map. intros [j r] Ij. cbn [fst snd].
  rewrite <- (numbered_snd_map _ _ (sorted_strings values) (fun v => ([r; v], f v r))).
  apply Forall2_maps. intros [i v] Ii. cbn [fst snd]. split; [reflexivity|]. split; [reflexivity|].
  apply numbered_in in Ij, Ii. intros [|[|l]] s E; simpl in E; try (destruct l; discriminate); injection E as <-.
  - exists j, (sorted_strings removed). repeat split; auto.
  - exists i, (sorted_strings values). repeat split; auto.
Qed.

Lemma sort_unstack_codes : forall A name values removed (f : string -> string -> A), NoDup values -> NoDup removed ->
  name = "cc_name" ->
  codes_are_columns (sort_index (swaplevel (unstack name values removed f))) (sorted_heads values removed f).
Proof.
  intros A name values removed f Nv Nr ->. intros i col h l k s Ec Eh NC Ek Es.
  pose proof Ec as Ec0. rewrite sort_unstack_cols in Ec by auto. apply nth_error_In in Ec. apply in_flat_map in Ec. destruct Ec as [[j r] [Ij Ic]].
  apply in_map_iff in Ic. destruct Ic as [[i' v] [<- Ii]]. cbn [fst snd] in *.
  destruct l as [|[|l]]; [exfalso; apply NC; reflexivity| |destruct l; discriminate].
  simpl in Ek. injection Ek as <-.
  pose proof (proj1 (headed_nth _ _ _) (sort_unstack_headed A "cc_name" values removed f Nv Nr)) as [Lh Hh].
  (* the first block of columns *)
  destruct (sorted_strings removed) as [|r0 sr] eqn:Er; [destruct Ij|].
  apply numbered_in in Ii.
  assert (EH : nth_error (sorted_heads values removed f) i' = Some ([r0; v], f v r0)).
  { unfold sorted_heads. rewrite Er. simpl. rewrite nth_error_app1 by (rewrite map_length; apply nth_error_Some; congruence).
    rewrite nth_error_map, Ii. reflexivity. }
  exists ([r0; v], f v r0), v, (make_column_name_pretty v). split; [exact EH|]. split; [reflexivity|].
  split; [|apply pretty_called].
  (* s is v *)
  assert (X : s = v); [|subst; apply pretty_called].
  destruct (Hh _ _ _ Ec0 Eh) as [_ [_ Hl]]. destruct (Hl 1 s Es) as [k [lev [X1 [X2 X3]]]].
  simpl in X1. injection X1 as <-. simpl in X2. injection X2 as <-. unfold sorted_strings in Ii. congruence.
Qed.

(** ** Values *)
Lemma replacements_eq : forall long, replacements long = if long then long_names else short_names.
Proof. intros []; vm_compute; reflexivity. Qed.
Lemma names_nodup : forall long, NoDup (map fst (replacements long)).
Proof. intros []; apply no_dup_strings_ok; vm_compute; reflexivity. Qed.
Lemma replace_value_ok : forall (long : bool) v, value_called (if long then long_names else short_names) v (replace_value long v).
Proof.
  intros long [s|x]; [|reflexivity]. rewrite <- replacements_eq. unfold value_called, replace_value. pose proof (called_by (replacements long) s) as C. unfold rename_by in C.
  destruct (lookup (replacements long) s) as [u|]; [exists u|exists s]; (split; [reflexivity|exact C]).
Qed.
Lemma replace_branching_ok : forall v, strategy_called v (replace_branching v).
Proof.
  intros v. unfold strategy_called, replace_branching.
  destruct v as [s|[|q|b]]; try (right; split; [reflexivity|]; intros; discriminate).
  destruct (Qeq_bool q 0) eqn:E0; [apply Qeq_bool_eq in E0; left; exists q, 0%Z; simpl; tauto|].
  destruct (Qeq_bool q 1) eqn:E1; [apply Qeq_bool_eq in E1; left; exists q, 1%Z; simpl; tauto|].
  destruct (Qeq_bool q 2) eqn:E2; [apply Qeq_bool_eq in E2; left; exists q, 2%Z; simpl; tauto|].
  destruct (Qeq_bool q 4) eqn:E4; [apply Qeq_bool_eq in E4; left; exists q, 4%Z; simpl; tauto|].
  apply Qeq_bool_neq in E0, E1, E2, E4. right. split; [reflexivity|]. intros q' n E I. injection E as <-.
  simpl in I. destruct I as [<- |[<- |[<- |[<- |[]]]]]; assumption.
Qed.

Definition rows_fit (names : list (option string)) (index : list (list value)) : Prop :=
  Forall (fun r => List.length r = List.length names) index.

Lemma rename_level_id : forall f name names index, rows_fit names index -> existsb (is_name name) names = false ->
  rename_level f name names index = index.
Proof.
  intros f name names index F E. unfold rename_level. induction F as [|r index L F IH]; simpl; auto. f_equal; auto.
  clear -L E. revert names L E. induction r as [|v r IH]; intros [|n names] L E; simpl in *; try lia; auto.
  apply orb_false_iff in E. destruct E as [E1 E2]. rewrite E1. f_equal. apply IH; auto.
Qed.
Lemma rename_level_fit : forall f name names index, rows_fit names index -> rows_fit names (rename_level f name names index).
Proof.
  intros f name names index F. unfold rows_fit, rename_level in *. rewrite Forall_map. eapply Forall_impl; [|exact F].
  intros r L. simpl. rewrite map_length, combine_length, L. lia.
Qed.

Lemma replace_column_id : forall f name c, in_columns c name = false -> replace_column f name c = c.
Proof.
  intros f name [l|m] E; simpl in *; auto. f_equal. induction l as [|[c x] l IH]; simpl in *; auto.
  apply orb_false_iff in E. destruct E as [E1 E2]. rewrite E1. f_equal. auto.
Qed.
Lemma in_replace_column : forall f name c n, in_columns (replace_column f name c) n = in_columns c n.
Proof.
  intros f name [l|m] n; simpl; auto. induction l as [|[c x] l IH]; simpl; auto. rewrite IH. destruct (String.eqb c name); reflexivity.
Qed.

Definition pretty_step (long : bool) (t : tframe) (col : string) : tframe :=
  let t := if in_columns (tf_columns t) col
      then mkT (replace_column (replace_value long) col (tf_columns t)) (tf_index_names t) (tf_index t) else t in
    if existsb (is_name col) (tf_index_names t)
    then mkT (tf_columns t) (tf_index_names t) (rename_level (replace_value long) col (tf_index_names t) (tf_index t)) else t.

Lemma pretty_step_eq : forall long c names index col, rows_fit names index ->
  pretty_step long (mkT c names index) col =
  mkT (replace_column (replace_value long) col c) names (rename_level (replace_value long) col names index).
Proof.
  intros long c names index col F. unfold pretty_step. cbn [tf_columns tf_index_names tf_index].
  destruct (in_columns c col) eqn:E1; cbn [tf_columns tf_index_names tf_index]; destruct (existsb (is_name col) names) eqn:E2;
    rewrite ?(replace_column_id _ _ _ E1), ?(rename_level_id _ _ _ _ F E2); reflexivity.
Qed.

Definition three (long : bool) (c : columns) : columns :=
  replace_column (replace_value long) "branching_strategy" (replace_column (replace_value long) "cost_function"
    (replace_column (replace_value long) "algorithm" c)).
Definition four (long : bool) (names : list (option string)) (index : list (list value)) : list (list value) :=
  rename_level replace_branching "branching_strategy" names
    (rename_level (replace_value long) "branching_strategy" names (rename_level (replace_value long) "cost_function" names
      (rename_level (replace_value long) "algorithm" names index))).

Lemma pretty_values_eq : forall long c names index, rows_fit names index ->
  pretty_values long (mkT c names index) =
  mkT (if in_columns c "branching_strategy" then replace_everywhere replace_branching (three long c) else three long c) names
    (four long names index).
Proof.
  intros long c names index F. unfold pretty_values. fold (pretty_step long).
  change (fun (t : tframe) (col : string) => pretty_step long t col) with (pretty_step long).
  cbn [fold_left]. rewrite pretty_step_eq by auto. rewrite pretty_step_eq by (apply rename_level_fit; auto).
  rewrite pretty_step_eq by (repeat apply rename_level_fit; auto).
  cbn [tf_columns tf_index_names tf_index]. fold (three long c).
  assert (I : in_columns (three long c) "branching_strategy" = in_columns c "branching_strategy") by (unfold three; rewrite !in_replace_column; reflexivity).
  rewrite I. unfold four.
  set (idx := rename_level (replace_value long) "branching_strategy" names _).
  assert (Fi : rows_fit names idx) by (unfold idx; repeat apply rename_level_fit; auto).
  destruct (in_columns c "branching_strategy"); cbn [tf_columns tf_index_names tf_index];
    destruct (existsb (is_name "branching_strategy") names) eqn:E; rewrite ?(rename_level_id _ _ _ _ Fi E); reflexivity.
Qed.

Lemma rename_level_nth : forall (f : value -> value) name names r i n v, nth_error names i = Some n -> nth_error r i = Some v ->
  nth_error (map (fun nv => if is_name name (fst nv) then f (snd nv) else snd nv) (combine names r)) i =
  Some (if is_name name n then f v else v).
Proof.
  induction names as [|n0 names IH]; intros r i n v En Ev; [destruct i; discriminate|]. destruct r as [|v0 r]; [destruct i; discriminate|].
  destruct i; simpl in *; [injection En as <-; injection Ev as <-; reflexivity|apply IH; auto].
Qed.

Lemma four_rows : forall long names index, rows_fit names index -> Forall2 (row_ok long names) index (four long names index).
Proof.
  intros long names index F. unfold four, rename_level. rewrite !map_map. induction F as [|r index L F IH]; simpl; constructor; auto.
  clear IH F index. split.
  - rewrite !map_length, !combine_length, !map_length, !combine_length, !map_length, !combine_length, !map_length, !combine_length. lia.
  - intros i n v En Ev.
    pose proof (rename_level_nth (replace_value long) "algorithm" _ _ _ _ _ En Ev) as E1.
    pose proof (rename_level_nth (replace_value long) "cost_function" _ _ _ _ _ En E1) as E2.
    pose proof (rename_level_nth (replace_value long) "branching_strategy" _ _ _ _ _ En E2) as E3.
    pose proof (rename_level_nth replace_branching "branching_strategy" _ _ _ _ _ En E3) as E4.
    eexists. split; [exact E4|]. clear.
    destruct n as [s|]; simpl; [|reflexivity].
    destruct (String.eqb_spec s "algorithm") as [-> |]; simpl; [apply replace_value_ok|].
    destruct (String.eqb_spec s "cost_function") as [-> |]; simpl; [apply replace_value_ok|].
    destruct (String.eqb_spec s "branching_strategy") as [-> |]; simpl; [|reflexivity].
    eexists. split; [apply replace_value_ok|apply replace_branching_ok].
Qed.

Lemma names_renamed : forall names, Forall2 name_ok names (map (option_map make_column_name_pretty) names).
Proof. induction names as [|[s|] names IH]; simpl; constructor; auto; simpl; eauto using pretty_called. Qed.

Lemma in_flat : forall l name, in_columns (Flat l) name = true <-> In name (map fst l).
Proof.
  intros l name. simpl. rewrite existsb_exists, in_map_iff. split.
  - intros [x [I E]]. apply String.eqb_eq in E. eauto.
  - intros [x [E I]]. exists x. split; auto. subst. apply String.eqb_refl.
Qed.

Lemma value_map_ok : forall (long : bool) l, Forall2 (value_called (if long then long_names else short_names)) l (map (replace_value long) l).
Proof. induction l; simpl; constructor; auto. apply replace_value_ok. Qed.

Lemma flat_ok : forall long l names index, rows_fit names index -> ~ In "branching_strategy" (map fst l) ->
  exists l' names' index', pretty_dataframe long (mkT (Flat l) names index) = Ok (mkT (Flat l') names' index') /\
    Forall2 (column_ok long) l l' /\ Forall2 name_ok names names' /\ Forall2 (row_ok long names) index index'.
Proof.
  intros long l names index F N. unfold pretty_dataframe. rewrite pretty_values_eq by auto.
  destruct (in_columns (Flat l) "branching_strategy") eqn:E; [apply in_flat in E; contradiction|].
  cbn [tf_columns tf_index_names tf_index three replace_column pretty_columns bind]. eexists _, _, _. split; [reflexivity|].
  split; [|split; [apply names_renamed|apply four_rows; auto]].
  rewrite !map_map. clear E. induction l as [|[c x] l IH]; simpl; constructor; [|apply IH; simpl in N; tauto].
  simpl in N. assert (Nc : c <> "branching_strategy") by tauto. unfold column_ok. cbn [fst snd].
  destruct (String.eqb_spec c "algorithm") as [-> |]; simpl.
  { split; [apply (pretty_called "algorithm")|]. left. split; [tauto|apply value_map_ok]. }
  destruct (String.eqb_spec c "cost_function") as [-> |]; simpl.
  { split; [apply (pretty_called "cost_function")|]. left. split; [tauto|apply value_map_ok]. }
  destruct (String.eqb_spec c "branching_strategy") as [-> |]; [tauto|]. simpl. split; [apply pretty_called|]. right. split; [|reflexivity].
  intros [H|[H|[]]]; congruence.
Qed.

Lemma multi_ok : forall long m hs names index, rows_fit names index -> headed m hs ->
  (forall h, In h hs -> nth_error (fst h) 0 <> Some "branching_strategy") ->
  exists m' names' index', pretty_dataframe long (mkT (Multi m) names index) = Ok (mkT (Multi m') names' index') /\
    m_names m' = m_names m /\
    ((exists hs', headed m' hs' /\ Forall2 (renamed (m_names m)) hs hs') <-> codes_are_columns m hs) /\
    Forall2 name_ok names names' /\ Forall2 (row_ok long names) index index'.
Proof.
  intros long m hs names index F H NB. unfold pretty_dataframe. rewrite pretty_values_eq by auto.
  assert (E : in_columns (Multi m) "branching_strategy" = false).
  { apply not_true_is_false. intros E. unfold in_columns in E. apply existsb_exists in E. destruct E as [col [I E]].
    apply In_nth_error in I. destruct I as [i Ei].
    destruct (proj1 (headed_nth _ _ _) H) as [L Hn].
    destruct (nth_error hs i) as [h|] eqn:Eh.
    2:{ apply nth_error_None in Eh. assert (i < List.length (m_cols m)) by (apply nth_error_Some; congruence). lia. }
    destruct (Hn _ _ _ Ei Eh) as [_ [Lh Hl]].
    destruct (nth_error (fst col) 0) as [k|] eqn:Ek; [|discriminate].
    destruct (nth_error (nth 0 (m_levels m) []) k) as [s|] eqn:Es; [|discriminate]. apply String.eqb_eq in E. subst s.
    assert (P : 0 < List.length (m_levels m)). { destruct (m_levels m); [simpl in Es; destruct k; discriminate Es|simpl; lia]. }
    destruct (nth_error (fst h) 0) as [s|] eqn:E0; [|apply nth_error_None in E0; lia].
    destruct (Hl _ _ E0) as [k' [lev [X1 [X2 X3]]]]. assert (k' = k) by congruence. subst k'.
    rewrite (nth_error_nth _ _ [] X2) in Es. apply (NB h); [eapply nth_error_In; eauto|congruence]. }
  rewrite E. cbn [three replace_column tf_columns tf_index_names tf_index].
  destruct (columns_multi m hs H) as [m' [Em [Nm [_ IFF]]]]. rewrite Em. cbn [bind].
  eexists _, _, _. split; [reflexivity|]. split; [exact Nm|]. split; [exact IFF|]. split; [apply names_renamed|apply four_rows; auto].
Qed.

Lemma name_ok_eq : forall names names', Forall2 name_ok names names' -> names' = map (option_map make_column_name_pretty) names.
Proof.
  induction 1 as [|[s|] n' names names' H F IH]; simpl; auto; f_equal; auto. destruct H as [s' [-> C]]. simpl. f_equal. apply pretty_eq. exact C.
Qed.

(** ** The table of cost cover *)
Lemma rowkey_eqb_eq : forall a b, rowkey_eqb a b = true <-> a = b.
Proof.
  intros [a x] [b y]. unfold rowkey_eqb. simpl. rewrite andb_true_iff, String.eqb_eq, Z.eqb_eq. split; [intros [-> ->]; reflexivity|].
  intros E. injection E as -> ->. auto.
Qed.

Lemma cc_rows_ok : forall t, NoDup (cc_rows t) /\ forall k, In k (cc_rows t) <-> exists n c, In ((k, n), c) t.
Proof.
  intros t. unfold cc_rows.
  assert (G : forall t ks, NoDup ks ->
    let r := fold_left (fun ks (x : (string * Z * cc_name) * cc_line) => let k := fst (fst x) in if existsb (rowkey_eqb k) ks then ks else (ks ++ [k])%list) t ks in
    NoDup r /\ forall k, In k r <-> In k ks \/ exists n c, In ((k, n), c) t).
  { clear. induction t as [|[[k n] c] t IH]; intros ks N; cbn [fold_left].
    - split; auto. intros k. split; [auto|intros [H|[n [c []]]]; auto].
    - cbn [fst snd]. destruct (existsb (rowkey_eqb k) ks) eqn:E.
      + destruct (IH ks N) as [N' I']. split; [exact N'|]. intros k'. rewrite I'. apply existsb_exists in E. destruct E as [k2 [Ik E]].
        apply rowkey_eqb_eq in E. subst k2. split; [intros [H|[n' [c' H]]]; [auto|right; exists n', c'; right; exact H]|].
        intros [H|[n' [c' [H|H]]]]; [auto| |right; eauto]. injection H as -> _ _. auto.
      + assert (NI : ~ In k ks). { intros I. assert (X : existsb (rowkey_eqb k) ks = true) by (apply existsb_exists; exists k; split; [auto|apply rowkey_eqb_eq; reflexivity]). congruence. }
        assert (N2 : NoDup (ks ++ [k])). { eapply Permutation_NoDup; [apply Permutation_cons_append|]. constructor; auto. }
        destruct (IH _ N2) as [N' I']. split; [exact N'|]. intros k'. rewrite I', in_app_iff. simpl. split.
        * intros [[H|[->|[]]]|[n' [c' H]]]; [auto|right; exists n, c; auto|right; exists n', c'; auto].
        * intros [H|[n' [c' [H|H]]]]; [auto| |right; eauto]. injection H as -> _ _. auto. }
  destruct (G t [] (NoDup_nil _)) as [N I]. split; [exact N|]. intros k. rewrite I. simpl. tauto.
Qed.

Lemma cc_name_eqb_eq : forall a b, cc_name_eqb a b = true <-> a = b.
Proof. intros [] []; simpl; split; congruence. Qed.
Lemma cc_string_inj : forall a b, cc_string a = cc_string b -> a = b.
Proof. intros [] []; simpl; congruence. Qed.

Lemma cc_present_ok : forall t, names_of t (cc_present t).
Proof.
  intros t. unfold names_of, cc_present. split.
  - intros n. rewrite filter_In. split.
    + intros [_ E]. apply existsb_exists in E. destruct E as [[[k n'] c] [I E]]. apply cc_name_eqb_eq in E. simpl in E. subst n'. eauto.
    + intros [k [c I]]. split; [destruct n; simpl; tauto|]. apply existsb_exists. eexists. split; [exact I|]. apply cc_name_eqb_eq. reflexivity.
  - cbn [filter]. destruct (existsb (fun x => cc_name_eqb CcDisjoint (snd (fst x))) t), (existsb (fun x => cc_name_eqb CcShortest (snd (fst x))) t),
      (existsb (fun x => cc_name_eqb CcNone (snd (fst x))) t);
      match goal with |- exists a b c, ?l = _ /\ _ =>
        exists (filter (cc_name_eqb CcDisjoint) l), (filter (cc_name_eqb CcShortest) l), (filter (cc_name_eqb CcNone) l) end; simpl; auto 6.
Qed.

Lemma sorted_present : forall t, sorted_strings (map cc_string (cc_present t)) = map cc_string (cc_present t).
Proof.
  intros t. unfold cc_present. cbn [filter]. destruct (existsb (fun x => cc_name_eqb CcDisjoint (snd (fst x))) t), (existsb (fun x => cc_name_eqb CcShortest (snd (fst x))) t),
      (existsb (fun x => cc_name_eqb CcNone (snd (fst x))) t); vm_compute; reflexivity.
Qed.
Lemma present_nodup : forall t, NoDup (map cc_string (cc_present t)).
Proof.
  intros t. apply no_dup_strings_ok. unfold cc_present. cbn [filter]. destruct (existsb (fun x => cc_name_eqb CcDisjoint (snd (fst x))) t), (existsb (fun x => cc_name_eqb CcShortest (snd (fst x))) t),
      (existsb (fun x => cc_name_eqb CcNone (snd (fst x))) t); vm_compute; reflexivity.
Qed.

Lemma cc_cell_ok : forall e t column n f k, find (fun c => String.eqb (fst c) column) (cc_columns e) = Some (column, f) ->
  cell_ok t n f k (cc_cell e t column (cc_string n) k).
Proof.
  intros e t column n f k C. unfold cc_cell, cell_ok. rewrite C.
  destruct (find _ t) as [[[k' n'] c]|] eqn:F.
  - apply find_some in F. destruct F as [I E]. simpl in E. apply andb_true_iff in E. destruct E as [E1 E2].
    apply rowkey_eqb_eq in E1. apply String.eqb_eq in E2. apply cc_string_inj in E2. subst. left. eauto.
  - right. split; [|reflexivity]. intros c I. apply (find_none _ _ F) in I. simpl in I.
    rewrite (proj2 (rowkey_eqb_eq k k) eq_refl), String.eqb_refl in I. discriminate.
Qed.

Lemma list_prod_flat : forall A B (u : list A) (v : list B), list_prod u v = flat_map (fun a => map (fun b => (a, b)) v) u.
Proof. induction u; simpl; intros; auto. f_equal; auto. Qed.

Lemma cost_cover_latex_ok : forall d e t, e = CostCover \/ e = CcLondonaqAlpha -> t <> [] ->
  exists m index rows names hs fmts, cost_cover_latex d e t = Ok (mkT (Multi m) (cc_index_label d e) index, fmts) /\
    NoDup rows /\ (forall k, In k rows <-> exists n c, In ((k, n), c) t) /\ Forall2 (cc_row_label d) rows index /\
    names_of t names /\ headed m hs /\
    Forall2 (fun nh h => fst h = [cc_head (fst nh); fst (fst (snd nh))] /\
      Forall2 (cell_ok t (fst nh) (snd (snd nh))) rows (snd h)) (list_prod names (cc_heads e)) hs /\
    firstn (List.length (cc_index_label d e) + List.length hs) fmts =
      (repeat FmtL (List.length (cc_index_label d e)) ++ map (fun nh => snd (fst (snd nh))) (list_prod names (cc_heads e)))%list.
Proof.
  intros d e t He Ht. unfold cost_cover_latex.
  set (f := fun column name => map (cc_cell e t column name) (cc_rows t)).
  set (m := sort_index (swaplevel (unstack "cc_name" (map fst (cc_columns e)) (map cc_string (cc_present t)) f))).
  assert (Nv : NoDup (map fst (cc_columns e))) by (apply no_dup_strings_ok; destruct He as [-> | ->]; vm_compute; reflexivity).
  pose proof (sort_unstack_headed _ "cc_name" _ _ f Nv (present_nodup t)) as H. fold m in H.
  pose proof (sort_unstack_codes _ "cc_name" _ _ f Nv (present_nodup t) eq_refl) as K. fold m in K.
  assert (F : rows_fit (cc_index_names d e) (map (cc_index d) (cc_rows t))).
  { unfold rows_fit. apply Forall_map. apply Forall_forall. intros k _. destruct d, He as [-> | ->]; reflexivity. }
  assert (NB : forall h, In h (sorted_heads (map fst (cc_columns e)) (map cc_string (cc_present t)) f) -> nth_error (fst h) 0 <> Some "branching_strategy").
  { intros h I. unfold sorted_heads in I. apply in_flat_map in I. destruct I as [r [Ir I]]. apply in_map_iff in I. destruct I as [v [<- _]]. simpl.
    rewrite sorted_present in Ir. apply in_map_iff in Ir. destruct Ir as [[] [<- _]]; discriminate. }
  destruct (multi_ok false m _ (cc_index_names d e) _ F H NB) as [m' [names' [index' [E [Nm [IFF [NO RO]]]]]]].
  rewrite E. cbn [bind]. destruct (proj2 IFF K) as [hs' [H' R]].
  assert (EH : hs' = map (rename_head (m_names m)) (sorted_heads (map fst (cc_columns e)) (map cc_string (cc_present t)) f)).
  { clear -R. induction R; simpl; auto. f_equal; auto. apply renamed_eq. exact H. }
  assert (EH2 : hs' = flat_map (fun n => map (fun v => ([cc_string n; make_column_name_pretty v], f v (cc_string n))) (sorted_strings (map fst (cc_columns e)))) (cc_present t)).
  { rewrite EH. unfold sorted_heads. rewrite sorted_present, map_flat_map, flat_map_map. apply flat_map_ext_in. intros n _.
    rewrite map_map. apply map_ext. intros v. reflexivity. }
  destruct (cc_rows_ok t) as [ND IR].
  exists m', index', (cc_rows t), (cc_present t), hs', (cc_format d e).
  apply name_ok_eq in NO. split.
  { f_equal. f_equal. f_equal. rewrite NO. destruct d, He as [-> | ->]; vm_compute; reflexivity. }
  split; [exact ND|]. split; [exact IR|]. split.
  { clear -RO He. revert RO. generalize (cc_rows t). intros rows. revert index'. induction rows as [|k rows IH]; intros index' RO; inversion RO; subst; constructor; auto.
    clear -H1 He. destruct H1 as [L R]. destruct d; simpl in *.
    - assert (L1 : exists v, y = [v]) by (destruct y as [|v [|]]; simpl in L; try lia; eauto). destruct L1 as [v ->].
      destruct He as [-> | ->]; destruct (R 0 _ _ eq_refl eq_refl) as [v' [Ev X]]; simpl in Ev, X; injection Ev as <-; rewrite X; reflexivity.
    - assert (L2 : exists v w, y = [v; w]) by (destruct y as [|v [|w [|]]]; simpl in L; try lia; eauto). destruct L2 as [v [w ->]].
      destruct (R 0 _ _ eq_refl eq_refl) as [v' [Ev X]], (R 1 _ _ eq_refl eq_refl) as [w' [Ew Y]]. simpl in Ev, Ew.
      injection Ev as <-. injection Ew as <-. change (value_called short_names (VStr (fst k)) v) in X. destruct X as [s [-> C]].
      exists s. split; [exact C|]. simpl in Y. rewrite Y. reflexivity. }
  split; [apply cc_present_ok|]. split; [exact H'|].
  assert (HD : Forall2 (fun v (h : string * fmt * (cc_line -> value)) => make_column_name_pretty v = fst (fst h) /\
      exists g, find (fun c => String.eqb (fst c) v) (cc_columns e) = Some (v, g) /\ forall c, g c = snd h c)
      (sorted_strings (map fst (cc_columns e))) (cc_heads e)).
  { destruct He as [-> | ->].
    - change (sorted_strings (map fst (cc_columns CostCover))) with ["avg_cuts_presolve"; "mean_duration"; "mean_gap"; "num_optimal_solutions"].
      repeat constructor; try reflexivity; eexists; (split; [reflexivity|intros; reflexivity]).
    - change (sorted_strings (map fst (cc_columns CcLondonaqAlpha))) with ["mean_gap"; "mean_lower_bound"; "mean_upper_bound"; "num_feasible_solutions"].
      repeat constructor; try reflexivity; eexists; (split; [reflexivity|intros; reflexivity]). }
  split.
  - rewrite EH2, list_prod_flat. apply Forall2_flat_map. intros n _. clear -HD. induction HD as [|v h vs hds [P [g [Fg Eg]]] HD IH]; simpl; constructor; auto.
    simpl. split; [rewrite P; destruct n; reflexivity|]. unfold f. clear IH f. induction (cc_rows t) as [|k rows IHr]; simpl; constructor; auto.
    pose proof (cc_cell_ok e t v n g k Fg) as [[c [I ->]]|[No ->]]; [left|right; auto]. exists c. split; [exact I|apply Eg].
  - assert (LEN : List.length hs' = 4 * List.length (cc_present t)).
    { rewrite EH2. assert (LS : List.length (sorted_strings (map fst (cc_columns e))) = 4) by (destruct He as [-> | ->]; reflexivity).
      clear -LS. generalize (cc_present t). induction l; [reflexivity|]. cbn [flat_map]. rewrite app_length, map_length, LS, IHl. simpl. lia. }
    rewrite LEN. clear -He. unfold cc_present. cbn [filter].
    destruct (existsb (fun x => cc_name_eqb CcDisjoint (snd (fst x))) t), (existsb (fun x => cc_name_eqb CcShortest (snd (fst x))) t),
      (existsb (fun x => cc_name_eqb CcNone (snd (fst x))) t), d, He as [-> | ->]; reflexivity.
Qed.

(** ** The table of tailing off *)
Lemma tailing_latex_ok : forall t, exists index, tailing_off_latex t =
  Ok (mkT (Flat [("$\overline{\text{TIME}}$ (s)", map (fun x => VNum (tl_duration (snd x))) t);
    ("$\overline{\text{GAP}}$", map (fun x => VNum (tl_gap (snd x))) t);
    ("OPT", map (fun x => VNum (Fin (inject_Z (Z.of_nat (tl_optimal (snd x)))))) t);
    ("FEAS", map (fun x => VNum (Fin (inject_Z (Z.of_nat (tl_feasible (snd x)))))) t);
    ("$\mu (NODES)$", map (fun x => VNum (tl_nodes (snd x))) t); ("$\mu (SEC)$", map (fun x => VNum (tl_secs (snd x))) t)])
    [Some "$\Delta$"; Some "Branching strategy"; Some "$\gamma$"; Some "$\tau$"] index) /\
  Forall2 tailing_row_label (map fst t) index.
Proof.
  intros t. unfold tailing_off_latex.
  set (idx := map (fun x => let '(depth, strategy, gamma, tau) := fst x in
       [VNum (nint depth); VNum (nint strategy); VNum (Fin gamma); VNum (nint tau)]) t).
  set (names := [Some "branching_max_depth"; Some "branching_strategy"; Some "sec_lp_gap_improvement_threshold";
     Some "sec_max_tailing_off_iterations"]).
  assert (F : rows_fit names idx).
  { unfold rows_fit, idx. apply Forall_map. apply Forall_forall. intros [[[[a b] c] d] l] _. reflexivity. }
  exists (four false names idx). split.
  - unfold pretty_dataframe. rewrite pretty_values_eq by exact F. reflexivity.
  - pose proof (four_rows false names idx F) as R. revert R. generalize (four false names idx). unfold idx. clear F idx.
    induction t as [|[[[[a b] c] d] l] t IH]; intros index R; inversion R; subst; simpl; constructor; auto.
    clear -H1. destruct H1 as [L N]. simpl in L.
    assert (L4 : exists v w x z, y = [v; w; x; z]) by (destruct y as [|v [|w [|x [|z [|]]]]]; simpl in L; try lia; eauto 6).
    destruct L4 as [v [w [x [z ->]]]].
    destruct (N 0 _ _ eq_refl eq_refl) as [v' [E1 X1]], (N 1 _ _ eq_refl eq_refl) as [w' [E2 X2]], (N 2 _ _ eq_refl eq_refl) as [x' [E3 X3]],
      (N 3 _ _ eq_refl eq_refl) as [z' [E4 X4]].
    simpl in E1, E2, E3, E4. injection E1 as <-. injection E2 as <-. injection E3 as <-. injection E4 as <-.
    simpl in X1, X2, X3, X4. subst v x z. destruct X2 as [w' [-> S]]. simpl. exists w. split; [exact S|reflexivity].
Qed.

(** ** Witnesses *)
Definition strategy_frame : tframe :=
  mkT (Flat [("num_nodes", [VNum (Fin 1)]); ("branching_strategy", [VNum (Fin 2)])]) [None] [[VNum (Fin 0)]].
Lemma strategy_frame_eq : pretty_dataframe false strategy_frame =
  Ok (mkT (Flat [("$|V(G)|$", [VStr "Strong branching"]); ("Branching strategy", [VStr "Strong at tree top"])]) [None] [[VNum (Fin 0)]]).
Proof. vm_compute. reflexivity. Qed.

(** Two metrics for two algorithms, as unstack leaves them. *)
Definition unsorted : midx (list value) := unstack "algorithm" ["mean_duration"; "mean_gap"] ["extension"; "suurballes_heuristic"]
  (fun metric name => [VStr (metric ++ " of " ++ name)]).
Definition unsorted_heads : list (list string * list value) :=
  [(["mean_duration"; "extension"], [VStr "mean_duration of extension"]); (["mean_duration"; "suurballes_heuristic"], [VStr "mean_duration of suurballes_heuristic"]);
   (["mean_gap"; "extension"], [VStr "mean_gap of extension"]); (["mean_gap"; "suurballes_heuristic"], [VStr "mean_gap of suurballes_heuristic"])].
Lemma unsorted_headed : headed unsorted unsorted_heads.
Proof.
  repeat constructor; intros [|[|[|]]] s E; try discriminate E; injection E as <-; eexists _, _; repeat split.
Qed.

Lemma labels_ok : forall s t, called labels s t <-> make_column_name_pretty s = t.
Proof.
  assert (K : forall s t, In (s, t) labels <-> In (s, t) pretty_names).
  { intros s t. assert (A : forallb (fun x => existsb (fun y => String.eqb (fst x) (fst y) && String.eqb (snd x) (snd y))%bool pretty_names) labels = true) by (vm_compute; reflexivity).
    assert (B : forallb (fun x => existsb (fun y => String.eqb (fst x) (fst y) && String.eqb (snd x) (snd y))%bool labels) pretty_names = true) by (vm_compute; reflexivity).
    assert (Q : forall l l', forallb (fun x => existsb (fun y => String.eqb (fst x) (fst y) && String.eqb (snd x) (snd y))%bool l') l = true -> In (s, t) l -> In (s, t) l').
    { intros l l' F I. rewrite forallb_forall in F. specialize (F _ I). apply existsb_exists in F. destruct F as [[a b] [J E]]. simpl in E.
      apply andb_prop in E. destruct E as [E1 E2]. apply String.eqb_eq in E1, E2. subst. exact J. }
    split; apply Q; assumption. }
  intros s t. assert (C : called labels s t <-> called pretty_names s t).
  { unfold called. split; (intros [I|[E N]]; [left; apply K; exact I|right; split; [exact E|intros t' J; apply (N t'); apply K; exact J]]). }
  rewrite C. split; [intros H; symmetry; apply pretty_eq; exact H|]. intros <-. apply pretty_called.
Qed.

(** ** Tables with a column of the branching strategies *)
Lemma branching_map_ok : forall l, Forall2 strategy_called l (map replace_branching l).
Proof. induction l as [|v l IH]; simpl; constructor; auto using replace_branching_ok. Qed.

Lemma strategy_flat : forall long l names index, rows_fit names index -> In "branching_strategy" (map fst l) ->
  exists l' names' index', pretty_dataframe long (mkT (Flat l) names index) = Ok (mkT (Flat l') names' index') /\
    Forall2 (fun x x' => called pretty_names (fst x) (fst x') /\ exists w, Forall2 strategy_called w (snd x') /\
      ((In (fst x) ["algorithm"; "cost_function"; "branching_strategy"] /\ Forall2 (value_called (if long then long_names else short_names)) (snd x) w) \/
       (~ In (fst x) ["algorithm"; "cost_function"; "branching_strategy"] /\ w = snd x))) l l' /\
    Forall2 name_ok names names' /\ Forall2 (row_ok long names) index index'.
Proof.
  intros long l names index F N. unfold pretty_dataframe. rewrite pretty_values_eq by auto.
  apply in_flat in N. rewrite N.
  cbn [tf_columns tf_index_names tf_index three replace_column replace_everywhere pretty_columns bind]. eexists _, _, _. split; [reflexivity|].
  split; [|split; [apply names_renamed|apply four_rows; auto]].
  rewrite !map_map. clear N. induction l as [|[c x] l IH]; simpl; constructor; [|apply IH]. cbn [fst snd].
  destruct (String.eqb_spec c "algorithm") as [-> |]; simpl.
  { split; [apply (pretty_called "algorithm")|]. eexists. split; [apply branching_map_ok|]. left. split; [tauto|apply value_map_ok]. }
  destruct (String.eqb_spec c "cost_function") as [-> |]; simpl.
  { split; [apply (pretty_called "cost_function")|]. eexists. split; [apply branching_map_ok|]. left. split; [tauto|apply value_map_ok]. }
  destruct (String.eqb_spec c "branching_strategy") as [-> |]; simpl.
  { split; [apply (pretty_called "branching_strategy")|]. eexists. split; [apply branching_map_ok|]. left. split; [tauto|apply value_map_ok]. }
  split; [apply pretty_called|]. eexists. split; [apply branching_map_ok|]. right. split; [|reflexivity]. intros [H|[H|[H|[]]]]; congruence.
Qed.

Lemma strategy_multi : forall long m hs names index h, rows_fit names index -> headed m hs -> In h hs -> nth_error (fst h) 0 = Some "branching_strategy" ->
  exists m' names' index', pretty_dataframe long (mkT (Multi m) names index) = Ok (mkT (Multi m') names' index') /\ m_names m' = m_names m /\
    Forall2 (fun c c' => fst c' = fst c /\ Forall2 strategy_called (snd c) (snd c')) (m_cols m) (m_cols m') /\
    Forall2 name_ok names names' /\ Forall2 (row_ok long names) index index'.
Proof.
  intros long m hs names index h F H I B. unfold pretty_dataframe. rewrite pretty_values_eq by auto.
  assert (E : in_columns (Multi m) "branching_strategy" = true).
  { unfold in_columns. apply existsb_exists. apply In_nth_error in I as (i & Eh). destruct (proj1 (headed_nth _ _ _) H) as [L Hn].
    destruct (nth_error (m_cols m) i) as [col|] eqn:Ec.
    2:{ apply nth_error_None in Ec. assert (i < List.length hs) by (apply nth_error_Some; congruence). lia. }
    destruct (Hn _ _ _ Ec Eh) as [_ [_ Hl]]. destruct (Hl _ _ B) as [k [lev [X1 [X2 X3]]]]. exists col. split; [eapply nth_error_In; eauto|].
    rewrite X1, (nth_error_nth _ _ [] X2), X3. apply String.eqb_refl. }
  rewrite E. cbn [three replace_column replace_everywhere tf_columns tf_index_names tf_index].
  set (m1 := mkMidx _ _ _).
  assert (H1 : headed m1 (map (fun x => (fst x, map replace_branching (snd x))) hs)).
  { unfold headed, m1. cbn [m_cols m_levels]. clear I E. unfold headed in H. induction H as [|c g cs gs (A & A' & A'') H IH]; cbn [map]; constructor; [|exact IH].
    cbn [fst snd]. rewrite A. auto. }
  destruct (columns_multi m1 _ H1) as [m' [Em [Nm [Cm _]]]]. rewrite Em. cbn [bind]. eexists _, _, _. split; [reflexivity|]. split; [exact Nm|].
  split; [|split; [apply names_renamed|apply four_rows; auto]]. rewrite Cm. unfold m1. cbn [m_cols]. clear.
  induction (m_cols m) as [|c l IH]; cbn [map]; constructor; [|exact IH]. cbn [fst snd]. split; [reflexivity|apply branching_map_ok].
Qed.
