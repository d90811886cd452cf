(** * P_ILP: the integer program is exact *)
From Coq Require Import Permutation.
From Verif Require Import Base Graph Spec Spec_Cycle M_Walk M_Graph M_Solution M_ILP Spec_ILP.
From Verif Require Import P_Base P_Walk P_Cycle P_Extension.
Open Scope nat_scope.

(** ** sums *)
Fixpoint zsum (f : nat -> Z) (l : list nat) : Z :=
  match l with [] => 0%Z | a :: l => (f a + zsum f l)%Z end.

Lemma zsum_app f a b : zsum f (a ++ b) = (zsum f a + zsum f b)%Z.
Proof. induction a; simpl; lia. Qed.

Lemma zsum_perm f a b : Permutation a b -> zsum f a = zsum f b.
Proof. induction 1; simpl; lia. Qed.

Lemma zsum_ext f h l : (forall a, In a l -> f a = h a) -> zsum f l = zsum h l.
Proof.
  induction l; simpl; auto. intros H. rewrite (H a (or_introl eq_refl)), IHl; auto.
Qed.

Lemma zsum_const k l : zsum (fun _ => k) l = (k * Z.of_nat (length l))%Z.
Proof. induction l; cbn [zsum length]; lia. Qed.

(** a weighted sum of 0/D values *)
Lemma zsum_filter (w x : nat -> Z) (D : Z) l : (0 < D)%Z ->
  (forall a, In a l -> x a = 0%Z \/ x a = D) ->
  zsum (fun a => (w a * x a)%Z) l = (D * zsum w (filter (fun a => (x a =? D)%Z) l))%Z.
Proof.
  intros HD. induction l as [|a l IH]; intros H; [simpl; lia|].
  cbn [zsum filter]. rewrite IH by (intros; apply H; now right).
  destruct (H a (or_introl eq_refl)) as [E|E]; rewrite E.
  - destruct (Z.eqb_spec 0 D); [lia|]. lia.
  - rewrite Z.eqb_refl. cbn [zsum]. lia.
Qed.

Lemma zsum_filter_zero (w : nat -> Z) (P : nat -> bool) l :
  (forall a, In a l -> P a = false -> w a = 0%Z) -> zsum w (filter P l) = zsum w l.
Proof.
  induction l as [|a l IH]; intros H; [reflexivity|]. cbn [filter].
  assert (IH' : zsum w (filter P l) = zsum w l) by (apply IH; intros; apply H; auto; now right).
  destruct (P a) eqn:E; cbn [zsum]; [lia|]. rewrite (H a (or_introl eq_refl) E). lia.
Qed.

Lemma filter_filter {A} (P Q : A -> bool) l :
  filter P (filter Q l) = filter (fun a => Q a && P a) l.
Proof.
  induction l as [|a l IH]; [reflexivity|]. cbn [filter]. destruct (Q a) eqn:E; cbn [filter andb]; auto.
  destruct (P a); now rewrite IH.
Qed.

Lemma lin_value_pairs x (w : nat -> Z) l :
  lin_value x (map (fun e => (e, w e)) l) = zsum (fun e => (w e * x e)%Z) l.
Proof. induction l; simpl; auto. now rewrite IHl. Qed.

Lemma filter_NoDup {A} (P : A -> bool) l : NoDup l -> NoDup (filter P l).
Proof. apply NoDup_filter. Qed.

(** ** edges *)
Definition loopb (g : graph) (e : nat) : bool :=
  match nth_error (ge g) e with Some (a, b) => Nat.eqb a b | None => false end.
Definition incb (g : graph) (v e : nat) : bool :=
  match nth_error (ge g) e with
  | Some (a, b) => negb (Nat.eqb a b) && (Nat.eqb a v || Nat.eqb b v)
  | None => false
  end.

Definition eids (g : graph) : list nat := seq 0 (length (ge g)).

Lemma eids_In g e : In e (eids g) <-> e < length (ge g).
Proof. unfold eids. rewrite in_seq. lia. Qed.

Lemma loopb_spec g e : loopb g e = true <-> exists v, joins g e v v.
Proof.
  unfold loopb, joins. destruct (nth_error (ge g) e) as [[a b]|] eqn:E.
  - rewrite Nat.eqb_eq. split.
    + intros ->. exists b. auto.
    + intros (v & [H|H]); inversion H; auto.
  - split; [discriminate|]. intros (v & [H|H]); discriminate.
Qed.

Lemma loopb_joins g e u v : joins g e u v -> loopb g e = Nat.eqb u v.
Proof.
  unfold loopb, joins. intros [H|H]; rewrite H; auto. apply Nat.eqb_sym.
Qed.

Lemma joins_fun g e u v u' v' : joins g e u v -> joins g e u' v' ->
  (u = u' /\ v = v') \/ (u = v' /\ v = u').
Proof. intros [H|H] [H'|H']; rewrite H in H'; inversion H'; subst; auto. Qed.

Lemma joins_exists g e : e < length (ge g) -> exists u v, joins g e u v.
Proof.
  intros H. destruct (nth_error (ge g) e) as [[u v]|] eqn:E.
  - exists u, v. left; auto.
  - apply nth_error_None in E. lia.
Qed.

Lemma edge_of_joins g e u v : no_parallel g -> u < gn g -> joins g e u v ->
  edge g u v = Ok (Some e).
Proof.
  intros Hp Hu Hj. apply edge_of_step; auto. split; auto. intros f Hf.
  rewrite (Hp e f u v Hj Hf). lia.
Qed.

Lemma endpoints_ok g e u v : nth_error (ge g) e = Some (u, v) -> endpoints g e = Ok (u, v).
Proof. unfold endpoints. now intros ->. Qed.

(** ** the degree row *)
Definition loops_at (v : nat) (l : list (nat * nat)) : nat :=
  length (filter (fun p => Nat.eqb (fst p) v && Nat.eqb (snd p) v) l).

Lemma adj_length g v pre l : ge g = pre ++ l ->
  length (flat_map (adj_of v) l) =
  length (filter (incb g v) (seq (length pre) (length l))) + 2 * loops_at v l.
Proof.
  revert pre. induction l as [|[a b] l IH]; intros pre E; [reflexivity|].
  cbn [flat_map length seq filter]. rewrite app_length.
  rewrite (IH (pre ++ [(a, b)])) by (rewrite <- app_assoc; exact E).
  rewrite app_length. cbn [length]. rewrite Nat.add_1_r.
  assert (En : nth_error (ge g) (length pre) = Some (a, b)).
  { rewrite E, nth_error_app2, Nat.sub_diag by lia. reflexivity. }
  assert (Ei : incb g v (length pre) = negb (Nat.eqb a b) && (Nat.eqb a v || Nat.eqb b v)).
  { unfold incb. now rewrite En. }
  rewrite Ei. unfold adj_of, loops_at. cbn [fst snd filter].
  destruct (Nat.eqb_spec a v) as [->|Ha]; destruct (Nat.eqb_spec b v) as [->|Hb];
    cbn [andb orb app length].
  - rewrite Nat.eqb_refl. cbn [negb andb length]. lia.
  - destruct (Nat.eqb_spec v b); [congruence|]. cbn [negb andb length]. lia.
  - destruct (Nat.eqb_spec a v); [congruence|]. cbn [negb andb length]. lia.
  - rewrite andb_false_r. lia.
Qed.

Lemma loops_at_zero v l : (forall p, In p l -> p <> (v, v)) -> loops_at v l = 0.
Proof.
  unfold loops_at. induction l as [|[a b] l IH]; intros H; [reflexivity|].
  cbn [filter fst snd]. destruct (Nat.eqb_spec a v) as [->|]; cbn [andb]; [|apply IH; intros; apply H; now right].
  destruct (Nat.eqb_spec b v) as [->|]; [|apply IH; intros; apply H; now right].
  exfalso. apply (H (v, v)); [now left|reflexivity].
Qed.

Lemma loops_at_one g v : no_parallel g -> is_edge g v v -> loops_at v (ge g) = 1.
Proof.
  intros Hp [e He].
  assert (E : nth_error (ge g) e = Some (v, v)) by (destruct He; auto).
  destruct (nth_error_split _ _ E) as (l1 & l2 & E1 & E2).
  rewrite E1. unfold loops_at. rewrite filter_app, app_length. cbn [filter fst snd].
  rewrite !Nat.eqb_refl. cbn [andb length].
  fold (loops_at v l1). fold (loops_at v l2).
  rewrite !loops_at_zero; [reflexivity| |].
  - intros p Hin ->. apply In_nth_error in Hin as [k Hk].
    assert (J : joins g (length l1 + S k) v v).
    { left. rewrite E1, nth_error_app2 by lia.
      replace (length l1 + S k - length l1) with (S k) by lia. exact Hk. }
    pose proof (Hp _ _ _ _ He J). lia.
  - intros p Hin ->. apply In_nth_error in Hin as [k Hk].
    pose proof (nth_error_Some_lt _ _ _ Hk).
    assert (J : joins g k v v). { left. rewrite E1, nth_error_app1 by lia. exact Hk. }
    pose proof (Hp _ _ _ _ He J). lia.
Qed.

Section LOOPS.
Variable g : graph.
Hypothesis Hg : graph_ok g.
Hypothesis Hp : no_parallel g.
Hypothesis Hl : all_loops g.

Definition inc (v : nat) : list nat := filter (incb g v) (eids g).

Lemma degree_fold v l nn : v < gn g -> joins g l v v -> forall suf pre ts,
  ge g = pre ++ suf -> length ts + length (filter (incb g v) (seq (length pre) (length suf))) <= nn ->
  foldM (fun ts u =>
           do of <- edge g v u;
           match of with
           | None => UB Uninit
           | Some f =>
               if Nat.eqb f l then Ok ts
               else if Nat.ltb (length ts) nn then Ok (ts ++ [(f, 1%Z)])
               else UB VecOOB
           end) (flat_map (adj_of v) suf) ts
  = Ok (ts ++ map (fun e => (e, 1%Z)) (filter (incb g v) (seq (length pre) (length suf)))).
Proof.
  intros Hv Hj. induction suf as [|[a b] suf IH]; intros pre ts E Hn.
  - cbn. now rewrite app_nil_r.
  - cbn [flat_map length seq filter]. rewrite foldM_app.
    assert (En : nth_error (ge g) (length pre) = Some (a, b)).
    { rewrite E, nth_error_app2, Nat.sub_diag by lia. reflexivity. }
    assert (Ei : incb g v (length pre) = negb (Nat.eqb a b) && (Nat.eqb a v || Nat.eqb b v)).
    { unfold incb. now rewrite En. }
    assert (E' : ge g = (pre ++ [(a, b)]) ++ suf) by (rewrite <- app_assoc; exact E).
    assert (El : length (pre ++ [(a, b)]) = S (length pre)) by (rewrite app_length; cbn [length]; lia).
    specialize (IH (pre ++ [(a, b)])). rewrite El in IH.
    cbn [length seq filter] in Hn. rewrite Ei in Hn |- *. unfold adj_of. cbn [fst snd].
    pose proof (edge_of_joins g l v v Hp Hv Hj) as Ell.
    assert (Hstep : forall u, joins g (length pre) v u -> u <> v ->
      edge g v u = Ok (Some (length pre)) /\ Nat.eqb (length pre) l = false).
    { intros u Hju Hne. split; [now apply edge_of_joins|].
      apply Nat.eqb_neq. intros Ex. rewrite Ex in Hju.
      destruct (joins_fun g l v u v v Hju Hj) as [[_ H]|[_ H]]; congruence. }
    destruct (Nat.eqb_spec a v) as [->|Ha]; destruct (Nat.eqb_spec b v) as [->|Hb];
      cbn [app orb foldM] in Hn |- *.
    + rewrite Nat.eqb_refl in Hn |- *. cbn [negb andb] in Hn |- *.
      rewrite Ell. cbn [bind]. rewrite Nat.eqb_refl. cbn [bind]. apply IH; auto.
    + destruct (Nat.eqb_spec v b); [congruence|]. cbn [negb andb length] in Hn |- *.
      destruct (Hstep b) as [S1 S2]; [left; auto|auto|].
      rewrite S1. cbn [bind]. rewrite S2.
      destruct (Nat.ltb_spec (length ts) nn); [|lia]. cbn [bind].
      rewrite IH; auto.
      * cbn [map]. now rewrite <- app_assoc.
      * rewrite app_length. cbn [length]. lia.
    + destruct (Nat.eqb_spec a v); [congruence|]. cbn [negb andb length] in Hn |- *.
      destruct (Hstep a) as [S1 S2]; [right; auto|auto|].
      rewrite S1. cbn [bind]. rewrite S2.
      destruct (Nat.ltb_spec (length ts) nn); [|lia]. cbn [bind].
      rewrite IH; auto.
      * cbn [map]. now rewrite <- app_assoc.
      * rewrite app_length. cbn [length]. lia.
    + rewrite andb_false_r in Hn |- *. cbn [bind]. apply IH; auto.
Qed.

Lemma degree_constraint_ok v : v < gn g -> exists l, joins g l v v /\
  degree_constraint g v =
    Ok (mkLin ((l, (-2)%Z) :: map (fun e => (e, 1%Z)) (inc v)) (Some 0%Z) (Some 0%Z)).
Proof.
  intros Hv. destruct (Hl v Hv) as [l Hj]. exists l. split; auto.
  unfold degree_constraint. rewrite (edge_of_joins g l v v Hp Hv Hj). cbn [bind].
  rewrite adjacent_ok by auto. cbn [bind].
  pose proof (adj_length g v [] (ge g) eq_refl) as Ha. cbn [length] in Ha.
  fold (nbrs g v) in Ha. fold (eids g) in Ha. fold (inc v) in Ha.
  rewrite (loops_at_one g v Hp (Hl v Hv)) in Ha.
  assert (Hf := fun nn => degree_fold v l nn Hv Hj (ge g) [] [(l, (-2)%Z)] eq_refl).
  cbn [length] in Hf. fold (nbrs g v) in Hf. fold (eids g) in Hf. fold (inc v) in Hf.
  rewrite Hf by lia. cbn [bind length app].
  rewrite map_length. destruct (Nat.ltb_spec (S (length (inc v))) (length (nbrs g v) - 1)); [lia|].
  reflexivity.
Qed.

(** ** support edges and solution edges *)
Variable s : sol.
Hypothesis Hb : binary g s.
Let x := s_num s.
Let D := s_den s.

Definition oneb (e : nat) : bool := (s_num s e =? s_den s)%Z.
Definition sup : list nat := filter (fun e => negb (loopb g e) && oneb e) (eids g).

Lemma D_pos : (0 < D)%Z.
Proof. apply Hb. Qed.

Lemma x_bin e : e < length (ge g) -> x e = 0%Z \/ x e = D.
Proof. apply Hb. Qed.

Lemma positive_oneb e : e < length (ge g) -> is_var_positive s e = oneb e.
Proof.
  intros He. pose proof D_pos. unfold is_var_positive, oneb, scip_is_zero.
  fold x. fold D. destruct (x_bin e He) as [E|E]; rewrite E.
  - change (Z.abs 0) with 0%Z. destruct (Z.eqb_spec 0 D); [lia|]. rewrite andb_false_r. reflexivity.
  - rewrite Z.eqb_refl. rewrite Z.abs_eq by lia.
    destruct (Z.leb_spec (D * 1000000000) D); [lia|]. destruct (Z.ltb_spec 0 D); [|lia]. reflexivity.
Qed.

Lemma solution_edges_filter entries :
  Forall (fun ev => fst ev < length (ge g) /\ snd ev = fst ev) entries -> forall acc,
  foldM (fun acc ev =>
           do uv <- endpoints g (fst ev);
           Ok (if andb (negb (Nat.eqb (fst uv) (snd uv))) (is_var_positive s (snd ev))
               then acc ++ [fst ev] else acc)) entries acc
  = Ok (acc ++ filter (fun e => negb (loopb g e) && oneb e) (map fst entries)).
Proof.
  induction 1 as [|[e v] entries [He Hs] _ IH]; intros acc.
  - cbn. now rewrite app_nil_r.
  - cbn [foldM fst snd map filter] in *. subst v.
    destruct (nth_error (ge g) e) as [[a b]|] eqn:E; [|apply nth_error_None in E; lia].
    rewrite (endpoints_ok g e a b E). cbn [bind fst snd].
    assert (El : loopb g e = Nat.eqb a b) by (unfold loopb; now rewrite E).
    rewrite El, positive_oneb by auto.
    destruct (negb (Nat.eqb a b) && oneb e); rewrite IH; [|reflexivity].
    now rewrite <- app_assoc.
Qed.

Lemma filter_perm {A} (P : A -> bool) (l l' : list A) : Permutation l l' -> Permutation (filter P l) (filter P l').
Proof.
  induction 1 as [|a l l' H IH|a b l|l l' l'' H1 IH1 H2 IH2]; cbn [filter].
  - constructor.
  - destruct (P a); auto.
  - destruct (P a), (P b); auto. constructor.
  - eapply Permutation_trans; eauto.
Qed.

Lemma solution_edges_ok entries : var_entries g entries ->
  exists es, get_solution_edges g s entries = Ok es /\ Permutation es sup.
Proof.
  intros He. unfold var_entries in He. eexists. split.
  - unfold get_solution_edges. rewrite solution_edges_filter; [reflexivity|].
    apply Forall_forall. intros ev Hin.
    apply (Permutation_in _ He) in Hin. apply in_map_iff in Hin as (e & <- & Hin).
    apply in_seq in Hin. cbn. lia.
  - cbn [app]. unfold sup. apply filter_perm.
    apply (Permutation_map fst) in He. rewrite map_map in He. cbn [fst] in He.
    now rewrite map_id in He.
Qed.

Lemma sup_In e : In e sup <-> e < length (ge g) /\ loopb g e = false /\ x e = D.
Proof.
  unfold sup. rewrite filter_In, eids_In, andb_true_iff, negb_true_iff. unfold oneb.
  rewrite Z.eqb_eq. reflexivity.
Qed.

Lemma sup_NoDup : NoDup sup.
Proof. apply NoDup_filter, seq_NoDup. Qed.

Lemma sup_valid : Forall (fun e => e < length (ge g)) sup.
Proof. apply Forall_forall. intros e He. now apply sup_In in He. Qed.

Lemma sup_no_loops : no_loops g sup.
Proof.
  intros e u v Hin Hj. apply sup_In in Hin as (_ & Hlo & _).
  rewrite (loopb_joins g e u v Hj) in Hlo. now apply Nat.eqb_neq.
Qed.

Lemma edge_adj_length v e : loopb g e = false -> length (edge_adj g v e) = if incb g v e then 1 else 0.
Proof.
  unfold loopb, edge_adj, incb. destruct (nth_error (ge g) e) as [[a b]|]; [|reflexivity].
  intros Hlo. rewrite Hlo. unfold adj_of. cbn [fst snd negb andb].
  apply Nat.eqb_neq in Hlo.
  destruct (Nat.eqb_spec a v), (Nat.eqb_spec b v); cbn; auto. congruence.
Qed.

Lemma incb_loopb v e : incb g v e = true -> loopb g e = false.
Proof.
  unfold incb, loopb. destruct (nth_error (ge g) e) as [[a b]|]; [|discriminate].
  destruct (Nat.eqb a b); [discriminate|auto].
Qed.

(** the degree of [v] in the support *)
Lemma inc_value v : zsum x (inc v) = (D * Z.of_nat (length (enbrs g sup v)))%Z.
Proof.
  assert (E : zsum x (inc v) = (D * zsum (fun _ => 1) (filter (fun a => (x a =? D)%Z) (inc v)))%Z).
  { rewrite <- zsum_filter.
    - apply zsum_ext. intros. lia.
    - apply D_pos.
    - intros a Ha. apply x_bin. unfold inc in Ha. apply filter_In in Ha as [Ha _]. now apply eids_In. }
  rewrite E, zsum_const, Z.mul_1_l. do 2 f_equal. clear E.
  unfold inc, sup, enbrs. rewrite filter_filter.
  induction (eids g) as [|e l IH]; [reflexivity|]. cbn [filter].
  destruct (loopb g e) eqn:El; cbn [negb andb].
  - destruct (incb g v e) eqn:Ei; [apply incb_loopb in Ei; congruence|]. cbn [andb]. exact IH.
  - change (x e =? D)%Z with (oneb e).
    destruct (oneb e) eqn:E1.
    + cbn [flat_map]. rewrite app_length, edge_adj_length by auto.
      destruct (incb g v e); cbn [andb length]; lia.
    + rewrite andb_false_r. exact IH.
Qed.

Lemma degree_row_sat v l : joins g l v v ->
  row_sat s (mkLin ((l, (-2)%Z) :: map (fun e => (e, 1%Z)) (inc v)) (Some 0%Z) (Some 0%Z)) <->
  (2 * x l = D * Z.of_nat (length (enbrs g sup v)))%Z.
Proof.
  intros Hj. unfold row_sat. cbn [l_lhs l_rhs l_terms lin_value].
  rewrite (lin_value_pairs (s_num s) (fun _ => 1%Z) (inc v)).
  rewrite (zsum_ext (fun e => (1 * s_num s e)%Z) x (inc v)) by (intros; unfold x; lia).
  rewrite inc_value. fold x. fold D. split.
  - intros [H1 H2]. specialize (H1 0%Z eq_refl). specialize (H2 0%Z eq_refl). lia.
  - intros H. split; intros a E; inversion E; subst; lia.
Qed.

Definition degree_rows (rows : list lin) : Prop :=
  Forall2 (fun v r => exists l, joins g l v v /\
     r = mkLin ((l, (-2)%Z) :: map (fun e => (e, 1%Z)) (inc v)) (Some 0%Z) (Some 0%Z))
    (vertices g) rows.

Lemma Forall2_Forall_iff {A B} (P : A -> B -> Prop) (Q : B -> Prop) (R : A -> Prop) l1 l2 :
  Forall2 P l1 l2 -> (forall a b, In a l1 -> P a b -> (Q b <-> R a)) ->
  (Forall Q l2 <-> forall a, In a l1 -> R a).
Proof.
  induction 1 as [|a b l1 l2 HP _ IH]; intros H.
  - split; auto. intros _ a [].
  - rewrite Forall_cons_iff. rewrite IH by (intros; apply H; auto; now right).
    rewrite (H a b) by (auto; now left). split.
    + intros [H1 H2] c [<-|Hc]; auto.
    + intros Hc. split; [apply Hc; now left|intros; apply Hc; now right].
Qed.

Lemma degree_rows_sat rows : degree_rows rows ->
  (Forall (row_sat s) rows <->
   forall v l, v < gn g -> joins g l v v ->
     (2 * x l = D * Z.of_nat (length (enbrs g sup v)))%Z).
Proof.
  intros H. rewrite (Forall2_Forall_iff _ _
    (fun v => forall l, joins g l v v -> (2 * x l = D * Z.of_nat (length (enbrs g sup v)))%Z) _ _ H).
  - split.
    + intros Hv v l Hlt Hj. apply Hv; auto. apply in_seq. lia.
    + intros Hv v Hin l Hj. apply in_seq in Hin. apply Hv; auto. lia.
  - intros v r Hin (l & Hj & ->). rewrite (degree_row_sat v l Hj). split; auto.
    intros H0 l' Hj'. rewrite <- H0. now rewrite (Hp l l' v v Hj Hj').
Qed.

Lemma degree_constraints_ok : exists rows, degree_constraints g = Ok rows /\ degree_rows rows.
Proof.
  unfold degree_constraints, degree_rows.
  destruct (mapM_exists (degree_constraint g)
    (fun v r => exists l, joins g l v v /\
      r = mkLin ((l, (-2)%Z) :: map (fun e => (e, 1%Z)) (inc v)) (Some 0%Z) (Some 0%Z)) (vertices g))
    as (rows & E & HF).
  - intros v Hv. apply in_seq in Hv.
    destruct (degree_constraint_ok v) as (l & Hj & E); [lia|]. eexists. split; [exact E|].
    exists l. auto.
  - exists rows. auto.
Qed.

(** ** weights and the prize row *)
Definition wgt (p : list Z) (e : nat) : Z :=
  match nth_error (ge g) e with
  | Some (a, b) => if Nat.eqb a b then nth a p 0%Z else 0%Z
  | None => 0%Z
  end.

Lemma put_prize_ok p : length p = gn g ->
  exists w, put_prize_onto_edge_weights g p = Ok w /\ length w = length (ge g) /\
    forall e, e < length (ge g) -> nth_error w e = Some (Some (wgt p e)).
Proof.
  intros Hlen. unfold put_prize_onto_edge_weights.
  assert (G : forall suf pre w, ge g = pre ++ suf -> length w = length (ge g) ->
    (forall e, e < length pre -> nth_error w e = Some (Some (wgt p e))) ->
    exists w', foldM (fun w uv =>
           let '(u, v) := uv in
           do x <- (if Nat.eqb u v then prize_of p u else Ok 0%Z);
           do oe <- edge g u v;
           match oe with
           | None => UB Uninit
           | Some e => vset w e (Some x)
           end) suf w = Ok w' /\ length w' = length (ge g) /\
      forall e, e < length (ge g) -> nth_error w' e = Some (Some (wgt p e))).
  { induction suf as [|[a b] suf IH]; intros pre w E Hw Hpre.
    - exists w. rewrite app_nil_r in E. split; [reflexivity|]. split; auto. intros e He.
      apply Hpre. rewrite <- E. auto.
    - cbn [foldM].
      assert (En : nth_error (ge g) (length pre) = Some (a, b)).
      { rewrite E, nth_error_app2, Nat.sub_diag by lia. reflexivity. }
      assert (Hab : a < gn g /\ b < gn g) by (apply Hg; eapply nth_error_In; eauto).
      assert (Ex : (if Nat.eqb a b then prize_of p a else Ok 0%Z) = Ok (wgt p (length pre))).
      { unfold wgt. rewrite En. destruct (Nat.eqb a b); auto. unfold prize_of.
        destruct (vget_ok p a) as (z & Ez & Nz); [lia|]. rewrite Ez.
        now rewrite (nth_error_nth p a 0%Z Nz). }
      rewrite Ex. cbn [bind]. rewrite (edge_of_joins g (length pre) a b Hp (proj1 Hab) (or_introl En)).
      cbn [bind]. assert (Hlt : length pre < length w) by (rewrite Hw; eapply nth_error_Some_lt; eauto).
      rewrite vset_ok by auto. cbn [bind].
      apply (IH (pre ++ [(a, b)])).
      + rewrite <- app_assoc. exact E.
      + now rewrite upd_length.
      + intros e He. rewrite app_length in He. cbn [length] in He.
        rewrite upd_nth by auto. destruct (Nat.eqb_spec (length pre) e) as [<-|Hne]; auto.
        apply Hpre. lia. }
  apply (G (ge g) []); auto.
  - apply repeat_length.
  - intros e He. cbn [length] in He. lia.
Qed.

Lemma mapM_map {A B} (f : A -> res B) (h : A -> B) l :
  (forall a, In a l -> f a = Ok (h a)) -> mapM f l = Ok (map h l).
Proof.
  induction l as [|a l IH]; intros H; [reflexivity|]. cbn [mapM map].
  rewrite (H a (or_introl eq_refl)). cbn [bind]. rewrite IH by (intros; apply H; now right).
  reflexivity.
Qed.

Lemma wgt_bounds p P e : (0 <= P)%Z -> Forall (fun z => - P <= z <= P)%Z p -> (- P <= wgt p e <= P)%Z.
Proof.
  intros HP HF. unfold wgt. destruct (nth_error (ge g) e) as [[a b]|]; [|lia].
  destruct (Nat.eqb a b); [|lia]. destruct (nth_in_or_default a p 0%Z) as [H|H]; [|lia].
  rewrite Forall_forall in HF. auto.
Qed.

Lemma prize_constraint_ok p w quota : prizes_within g p (- int_max) int_max ->
  (- int_max <= quota <= int_max)%Z ->
  length w = length (ge g) -> (forall e, e < length (ge g) -> nth_error w e = Some (Some (wgt p e))) ->
  prize_constraint g w quota =
    Ok (mkLin (map (fun e => (e, (- wgt p e)%Z)) (eids g)) None (Some (- quota)%Z)).
Proof.
  intros [_ HF] Hq Hlen Hw. unfold prize_constraint.
  rewrite chk_ok by (unfold int_min, int_max in *; lia). cbn [bind].
  rewrite (mapM_map _ (fun e => (e, (- wgt p e)%Z))); [reflexivity|].
  intros e He. apply eids_In in He. rewrite (vget_some w e _ (Hw e He)). cbn [bind].
  pose proof (wgt_bounds p int_max e ltac:(unfold int_max; lia) HF).
  rewrite chk_ok by (unfold int_min, int_max in *; lia). reflexivity.
Qed.

Definition ones : list nat := filter oneb (eids g).

Lemma weighted_value (w : nat -> Z) : zsum (fun e => (w e * x e)%Z) (eids g) = (D * zsum w ones)%Z.
Proof.
  unfold ones. change oneb with (fun a => (x a =? D)%Z). apply zsum_filter.
  - apply D_pos.
  - intros a Ha. apply x_bin. now apply eids_In.
Qed.

Lemma prize_row_sat p quota :
  row_sat s (mkLin (map (fun e => (e, (- wgt p e)%Z)) (eids g)) None (Some (- quota)%Z)) <->
  (quota <= zsum (wgt p) ones)%Z.
Proof.
  unfold row_sat. cbn [l_lhs l_rhs l_terms].
  rewrite (lin_value_pairs (s_num s) (fun e => (- wgt p e)%Z) (eids g)).
  assert (E : zsum (fun e => (- wgt p e * s_num s e)%Z) (eids g) = (- (D * zsum (wgt p) ones))%Z).
  { fold x. rewrite (weighted_value (fun e => (- wgt p e)%Z)).
    assert (En : forall l, zsum (fun e => (- wgt p e)%Z) l = (- zsum (wgt p) l)%Z).
    { induction l; cbn [zsum]; lia. }
    rewrite En. lia. }
  rewrite E. fold D. pose proof D_pos. split.
  - intros [_ H2]. specialize (H2 _ eq_refl). nia.
  - intros H0. split; intros a Ea; [discriminate|]. inversion Ea; subst. nia.
Qed.

(** ** tours *)
Definition loop_of (v : nat) : nat :=
  match find_edge (ge g) 0 v v with Some e => e | None => 0 end.

Lemma loop_of_joins v : v < gn g -> joins g (loop_of v) v v.
Proof.
  intros Hv. destruct (edge_exists g v v Hv (Hl v Hv)) as [e E].
  pose proof (edge_Some _ _ _ _ E) as [Hj _]. unfold edge in E.
  destruct (Nat.ltb_spec v (gn g)); [|lia]. unfold loop_of. now inversion E as [E1]; rewrite E1.
Qed.

Lemma loops_weight p vs z : length p = gn g -> NoDup vs -> Forall (fun v => v < gn g) vs ->
  (forall e, e < length (ge g) -> loopb g e = true ->
     (x e = D <-> exists v, In v vs /\ joins g e v v)) ->
  prize_sum p vs z -> zsum (wgt p) ones = z.
Proof.
  intros Hlen Hnd Hf Hx Hz.
  rewrite <- (zsum_filter_zero (wgt p) (loopb g) ones).
  2:{ intros e _ He. unfold loopb in He. unfold wgt.
      destruct (nth_error (ge g) e) as [[a b]|]; auto. now rewrite He. }
  assert (HP : Permutation (filter (loopb g) ones) (map loop_of vs)).
  { apply NoDup_Permutation.
    - apply NoDup_filter, NoDup_filter, seq_NoDup.
    - clear Hx Hz. induction vs as [|v vs IH]; [constructor|]. cbn [map].
      apply NoDup_cons_iff in Hnd as [Hn Hnd]. apply Forall_cons_iff in Hf as [Hv Hf].
      constructor; auto. intros Hin. apply in_map_iff in Hin as (u & E & Hu).
      rewrite Forall_forall in Hf. pose proof (loop_of_joins u (Hf u Hu)) as H1.
      pose proof (loop_of_joins v Hv) as H2. rewrite E in H1.
      destruct (joins_fun g _ _ _ _ _ H1 H2) as [[-> _]|[-> _]]; auto.
    - intros e. unfold ones. rewrite !filter_In, eids_In, in_map_iff. rewrite Forall_forall in Hf. split.
      + intros [[He Ho] Hlo]. unfold oneb in Ho. apply Z.eqb_eq in Ho.
        destruct (proj1 (Hx e He Hlo) Ho) as (v & Hin & Hj). exists v. split; auto.
        apply (Hp _ _ v v); auto. apply loop_of_joins. auto.
      + intros (v & <- & Hin). pose proof (loop_of_joins v (Hf v Hin)) as Hj.
        pose proof (joins_lt _ _ _ _ Hj) as He.
        assert (Hlo : loopb g (loop_of v) = true) by (apply loopb_spec; eauto).
        split; auto. split; auto. apply Z.eqb_eq. apply Hx; eauto. }
  rewrite (zsum_perm _ _ _ HP). clear HP Hx Hnd.
  induction Hz as [|v l a z Ha Hz IH]; [reflexivity|].
  apply Forall_cons_iff in Hf as [Hv Hf]. cbn [map zsum]. rewrite IH by auto. f_equal.
  unfold wgt. destruct (loop_of_joins v Hv) as [E|E]; rewrite E, Nat.eqb_refl;
    now apply nth_error_nth.
Qed.

Lemma loops_weight_ex p vs : length p = gn g -> Forall (fun v => v < gn g) vs ->
  exists z, prize_sum p vs z.
Proof. intros Hlen Hf. apply prize_sum_exists. now rewrite Hlen. Qed.

End LOOPS.

Lemma closed_In g r m t v : closed_tour g r m t -> (In v t <-> In v (removelast t)).
Proof.
  intros (vs & -> & _). rewrite removelast_cons_snoc. cbn [In]. rewrite in_app_iff. cbn [In]. tauto.
Qed.

Lemma rotate_to g r m t es x : closed_tour g r m t -> trail g t es -> In x t ->
  exists t' es', closed_tour g x m t' /\ trail g t' es' /\ Permutation es es' /\
    Permutation (removelast t) (removelast t') /\ (forall v, In v t <-> In v t').
Proof.
  intros Hc Ht Hx.
  assert (Hs : exists a b, t = a ++ x :: b /\ b <> []).
  { destruct Hc as (vs & -> & _). destruct Hx as [->|Hx].
    - exists [], (vs ++ [x]). split; auto. destruct vs; discriminate.
    - apply in_app_or in Hx as [Hx|[->|[]]].
      + apply in_split in Hx as (a & b & ->). exists (r :: a), (b ++ [r]).
        rewrite <- app_assoc. split; auto. destruct b; discriminate.
      + exists [], (vs ++ [x]). split; auto. destruct vs; discriminate. }
  destruct Hs as (a & b & E & Hb).
  destruct (rotate_trail g r m t es a x b Hc Ht E Hb) as (es' & H1 & H2 & H3 & H4).
  exists ((x :: b) ++ tl (a ++ [x])), es'. split; auto. split; auto. split; auto. split; auto.
  intros v. rewrite (closed_In g r m t v Hc), (closed_In g x m _ v H1).
  split; apply Permutation_in; auto. now apply Permutation_sym.
Qed.

Lemma trail_valid g w es : trail g w es -> Forall (fun e => e < length (ge g)) es.
Proof. induction 1; constructor; auto. eapply joins_lt; eauto. Qed.

Lemma trail_cost g c t es z : no_parallel g -> trail g t es -> walk_cost g c t z ->
  zsum (fun e => nth e c 0%Z) es = z.
Proof.
  intros Hp Ht. revert z. induction Ht as [u|u v w e es Hj Ht IH]; intros z Hz.
  - apply walk_cost_one in Hz. now subst.
  - apply walk_cost_inv2 in Hz as (f & a & b & [Hs _] & Ha & Hw & ->).
    pose proof (Hp _ _ _ _ Hj Hs) as Ef. subst f. cbn [zsum]. rewrite (IH _ Hw). f_equal.
    now apply nth_error_nth.
Qed.

Lemma trail_exists g t : is_walk g t -> t <> [] -> exists es, trail g t es.
Proof.
  induction 1 as [|u|u v w [e He] Hw IH]; intros Hn; [congruence| |].
  - exists []. constructor.
  - destruct IH as [es Hes]; [discriminate|]. exists (e :: es). now constructor.
Qed.

Section EXACT.
Variable g : graph.
Hypothesis Hg : graph_ok g.
Hypothesis Hp : no_parallel g.
Hypothesis Hl : all_loops g.
Variable s : sol.

(** the edges of an incidence vector are the support *)
Lemma incidence_sup r t : tour_from g r t -> incidence g t s ->
  binary g s /\ exists es, trail g t es /\ Permutation es (sup g s) /\ NoDup es /\
  (forall e v, joins g e v v -> (s_num s e = s_den s <-> In v t)).
Proof.
  intros Ht [Hb (es & Htr & Hx)]. split; auto. exists es. split; auto.
  assert (Hc : closed_tour g r 1 t) by (apply (closed_weaken g r 2 1); auto).
  pose proof (closed_no_loops g r t es Hc Htr) as Hnl.
  assert (Hnd : NoDup es).
  { destruct Ht as (vs & -> & H1 & H2 & _). eapply trail_nodup_big; eauto. }
  split; [|split; auto].
  - apply NoDup_Permutation; auto.
    { apply sup_NoDup. }
    intros e. rewrite sup_In. split.
    + intros Hin. pose proof (trail_valid g t es Htr) as Hv. rewrite Forall_forall in Hv.
      pose proof (Hv e Hin) as He. split; auto. split.
      * destruct (loopb g e) eqn:E; auto. apply loopb_spec in E as [v Hj].
        exfalso. apply (Hnl e v v Hin Hj). reflexivity.
      * apply Hx; auto.
    + intros (He & Hlo & Hxe). apply Hx in Hxe; auto. destruct Hxe as [|(v & _ & Hj)]; auto.
      assert (loopb g e = true) by (apply loopb_spec; eauto). congruence.
  - intros e v Hj. rewrite (Hx e (joins_lt _ _ _ _ Hj)). split.
    + intros [Hin|(u & Hu & Hj')].
      * exfalso. apply (Hnl e v v Hin Hj). reflexivity.
      * destruct (joins_fun g _ _ _ _ _ Hj Hj') as [[-> _]|[-> _]]; auto.
    + intros Hv. right. eauto.
Qed.

(** an incidence vector satisfies the degree equations *)
Lemma incidence_degree r t : tour_from g r t -> incidence g t s ->
  forall v l, v < gn g -> joins g l v v ->
  (2 * s_num s l = s_den s * Z.of_nat (length (enbrs g (sup g s) v)))%Z.
Proof.
  intros Ht Hi v l Hv Hj. destruct (incidence_sup r t Ht Hi) as (Hb & es & Htr & HP & Hnd & Hlo).
  assert (Hc : closed_tour g r 1 t) by (apply (closed_weaken g r 2 1); auto).
  rewrite <- (Permutation_length (enbrs_perm g es (sup g s) v HP)).
  rewrite (closed_degree g r t es v Hc Htr). specialize (Hlo l v Hj).
  destruct Hb as [HD Hb]. destruct (memb v t) eqn:E.
  - apply memb_In in E. apply Hlo in E. lia.
  - apply memb_not_In in E. destruct (Hb l (joins_lt _ _ _ _ Hj)) as [Hz|Hz]; [lia|].
    exfalso. apply E. now apply Hlo.
Qed.

Lemma incidence_weight p r t z : length p = gn g -> tour_from g r t -> incidence g t s ->
  tour_prize p t z -> zsum (wgt g p) (ones g s) = z.
Proof.
  intros Hlen Ht Hi Hz. destruct (incidence_sup r t Ht Hi) as (Hb & es & Htr & HP & Hnd & Hlo).
  apply (loops_weight g Hp Hl s p (removelast t)); auto.
  - destruct Ht as (vs & -> & H1 & _). rewrite removelast_cons_snoc. auto.
  - destruct Ht as (vs & -> & H1 & _ & _ & H2). rewrite removelast_cons_snoc.
    rewrite Forall_forall in H2 |- *. intros v Hv. apply H2. cbn [In] in Hv |- *.
    rewrite in_app_iff. tauto.
  - intros e He Hle. apply loopb_spec in Hle as [v Hj].
    rewrite (Hlo e v Hj), (closed_In g r 2 t v Ht). split.
    + intros Hin. exists v. auto.
    + intros (u & Hu & Hj'). destruct (joins_fun g _ _ _ _ _ Hj Hj') as [[-> _]|[-> _]]; auto.
Qed.

Lemma incidence_objective c r t z : length c = length (ge g) -> loops_cost_zero g c ->
  tour_from g r t -> incidence g t s -> walk_cost g c t z ->
  lin_value (s_num s) (map (fun e => (e, nth e c 0%Z)) (eids g)) = (z * s_den s)%Z.
Proof.
  intros Hlen Hc0 Ht Hi Hz. destruct (incidence_sup r t Ht Hi) as (Hb & es & Htr & HP & Hnd & Hlo).
  rewrite (lin_value_pairs (s_num s) (fun e => nth e c 0%Z) (eids g)).
  rewrite (weighted_value g s Hb (fun e => nth e c 0%Z)).
  rewrite <- (zsum_filter_zero _ (fun e => negb (loopb g e)) (ones g s)).
  - unfold ones. rewrite filter_filter.
    rewrite (filter_ext _ (fun e => negb (loopb g e) && oneb s e)) by (intros; apply andb_comm).
    fold (sup g s). rewrite <- (zsum_perm _ _ _ HP), (trail_cost g c t es z Hp Htr Hz). lia.
  - intros e _ Hle. apply negb_false_iff, loopb_spec in Hle as [v Hj].
    now apply nth_error_nth, (Hc0 e v).
Qed.

(** support that is a cycle + degree equations + root: the point is an incidence vector *)
Lemma support_cycle root : binary g s -> root < gn g ->
  (forall v l, v < gn g -> joins g l v v ->
     (2 * s_num s l = s_den s * Z.of_nat (length (enbrs g (sup g s) v)))%Z) ->
  (forall l, joins g l root root -> s_num s l = s_den s) ->
  cycle_edges g 2 (sup g s) ->
  exists t, tour_from g root t /\ incidence g t s.
Proof.
  intros Hb Hr Hdeg Hroot (r0 & t0 & es0 & Hc0 & Ht0 & HP0).
  destruct Hb as [HD Hbin].
  assert (Hloop : forall v l, joins g l v v -> (s_num s l = s_den s <-> In v t0)).
  { intros v l Hj.
    assert (Hv : v < gn g) by (apply (is_edge_range g v v Hg); exists l; auto).
    specialize (Hdeg v l Hv Hj).
    rewrite (Permutation_length (enbrs_perm g _ _ v HP0)) in Hdeg.
    rewrite (closed_degree g r0 t0 es0 v) in Hdeg; [|apply (closed_weaken g r0 2 1); auto|auto].
    destruct (memb v t0) eqn:E.
    - apply memb_In in E. split; auto. lia.
    - apply memb_not_In in E. split; [lia|tauto]. }
  assert (Hin : In root t0).
  { destruct (Hl root Hr) as [l Hj]. apply (Hloop root l Hj). auto. }
  destruct (rotate_to g r0 2 t0 es0 root Hc0 Ht0 Hin) as (t & es & Hc & Ht & HP & _ & Hiff).
  exists t. split; [exact Hc|]. split; [split; auto|]. exists es. split; auto.
  assert (HPs : Permutation (sup g s) es) by (eapply Permutation_trans; eauto).
  intros e He. split.
  - intros Hx. destruct (loopb g e) eqn:Elo.
    + right. apply loopb_spec in Elo as [v Hj]. exists v. split; auto. apply Hiff.
      now apply (Hloop v e Hj).
    + left. apply (Permutation_in _ HPs). apply sup_In. auto.
  - intros [Hin'|(v & Hv & Hj)].
    + apply (Permutation_in _ (Permutation_sym HPs)) in Hin'. now apply sup_In in Hin'.
    + apply (Hloop v e Hj). now apply Hiff.
Qed.

Lemma root_row_sat l : row_sat s (root_constraint l) <-> s_num s l = s_den s.
Proof.
  unfold row_sat, root_constraint. cbn [l_lhs l_rhs l_terms lin_value]. split.
  - intros [H1 H2]. specialize (H1 _ eq_refl). specialize (H2 _ eq_refl). lia.
  - intros E. split; intros a Ea; inversion Ea; subst; lia.
Qed.

Lemma check_iff entries : binary g s -> var_entries g entries ->
  exists b, is_sol_simple_cycle g s entries = Ok b /\ (b = true <-> cycle_edges g 2 (sup g s)).
Proof.
  intros Hb He. destruct (solution_edges_ok g s Hb entries He) as (es & E & HP).
  unfold is_sol_simple_cycle. rewrite E. cbn [bind].
  assert (Hnd : NoDup es) by (eapply Permutation_NoDup; [apply Permutation_sym; eauto|apply sup_NoDup]).
  assert (Hv : Forall (fun e => e < length (ge g)) es).
  { apply Forall_forall. intros e Hin. apply (Permutation_in _ HP) in Hin. now apply sup_In in Hin. }
  destruct (is_simple_cycle_iff g es Hg Hnd Hv) as (b & Eb & Hiff).
  exists b. split; auto. rewrite Hiff. split.
  - intros H. apply cycle_edges_simple in H; auto.
    destruct H as (r & t & es' & H1 & H2 & H3). exists r, t, es'. split; auto. split; auto.
    eapply Permutation_trans; [apply Permutation_sym; eauto|auto].
  - intros H. apply cycle_edges_weaken.
    destruct H as (r & t & es' & H1 & H2 & H3). exists r, t, es'. split; auto. split; auto.
    eapply Permutation_trans; eauto.
Qed.

End EXACT.
