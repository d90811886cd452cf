From Coq Require Import String QArith.
From Verif Require Import Base P_Base M_RunAlg M_Compare M_Stats M_Csv Spec_Lab P_Lab Spec_Csv M_Tables Spec_Tables.
Open Scope nat_scope.

(** ** Counting and grouping *)

Lemma filter_selected {A} (P : A -> Prop) (f : A -> bool) l : (forall x, In x l -> f x = true <-> P x) ->
  selected P l (filter f l).
Proof.
  induction l as [|x l IH]; intros H; cbn; [constructor|].
  destruct (f x) eqn:E.
  - apply sel_keep; [apply H; cbn; auto|]. apply IH. intros y I. apply H. cbn. auto.
  - apply sel_drop.
    + intros p. apply (H x (or_introl eq_refl)) in p. congruence.
    + apply IH. intros y I. apply H. cbn. auto.
Qed.

Lemma count_ok {A} (P : A -> Prop) (f : A -> bool) l : (forall x, In x l -> f x = true <-> P x) -> counts P l (count f l).
Proof. intros H. exists (filter f l). split; [apply filter_selected; exact H|reflexivity]. Qed.

Section Group.
Context {K R : Type} (eqb : K -> K -> bool) (same : K -> K -> Prop) (key : R -> option K).
Hypothesis eqb_same : forall a b, eqb a b = true <-> same a b.
Hypothesis same_refl : forall a, same a a.
Hypothesis same_sym : forall a b, same a b -> same b a.

Definition group_step (ks : list K) (r : R) : list K :=
  match key r with
  | Some k => if existsb (eqb k) ks then ks else (ks ++ [k])%list
  | None => ks
  end.

Definition keys_ok (done : list R) (ks : list K) : Prop :=
  ForallOrdPairs (fun a b => ~ same a b) ks /\
  (forall k, In k ks -> exists r, In r done /\ key r = Some k) /\
  (forall r k, In r done -> key r = Some k -> exists k', In k' ks /\ same k' k).

Lemma FOP_snoc {A} (P : A -> A -> Prop) l x : ForallOrdPairs P l -> (forall y, In y l -> P y x) -> ForallOrdPairs P (l ++ [x]).
Proof.
  induction 1 as [|y l F _ IH]; intros H; cbn; [repeat constructor|]. constructor.
  - apply Forall_app. split; [exact F|]. repeat constructor. apply H. cbn. auto.
  - apply IH. intros z I. apply H. cbn. auto.
Qed.

Lemma step_ok done ks r : keys_ok done ks -> keys_ok (done ++ [r]) (group_step ks r).
Proof.
  intros (O & S & C). unfold group_step. destruct (key r) as [k|] eqn:E.
  - destruct (existsb (eqb k) ks) eqn:X.
    + apply existsb_exists in X. destruct X as (k' & I & Q). apply eqb_same in Q. split; [exact O|]. split.
      * intros k0 J. destruct (S k0 J) as (r0 & I0 & E0). exists r0. split; [apply in_or_app; auto|exact E0].
      * intros r0 k0 J E0. apply in_app_or in J. destruct J as [J|[<-|[]]]; [eauto|].
        exists k'. split; [exact I|]. rewrite E in E0. injection E0 as <-. auto.
    + assert (N : forall k', In k' ks -> ~ same k' k).
      { intros k' I Q. apply same_sym in Q. apply eqb_same in Q.
        assert (existsb (eqb k) ks = true) by (apply existsb_exists; eauto). congruence. }
      split; [apply FOP_snoc; assumption|]. split.
      * intros k0 J. apply in_app_or in J. destruct J as [J|[<-|[]]].
        -- destruct (S k0 J) as (r0 & I0 & E0). exists r0. split; [apply in_or_app; auto|exact E0].
        -- exists r. split; [apply in_or_app; cbn; auto|exact E].
      * intros r0 k0 J E0. apply in_app_or in J. destruct J as [J|[<-|[]]].
        -- destruct (C r0 k0 J E0) as (k' & I & Q). exists k'. split; [apply in_or_app; auto|exact Q].
        -- exists k. split; [apply in_or_app; cbn; auto|]. rewrite E in E0. injection E0 as <-. auto.
  - split; [exact O|]. split.
    + intros k0 J. destruct (S k0 J) as (r0 & I0 & E0). exists r0. split; [apply in_or_app; auto|exact E0].
    + intros r0 k0 J E0. apply in_app_or in J. destruct J as [J|[<-|[]]]; [eauto|congruence].
Qed.

Lemma keys_fold l : forall done ks, keys_ok done ks -> keys_ok (done ++ l) (fold_left group_step l ks).
Proof.
  induction l as [|r l IH]; intros done ks H; cbn; [rewrite app_nil_r; exact H|].
  change (r :: l) with ([r] ++ l)%list. rewrite app_assoc. apply IH. apply step_ok. exact H.
Qed.

Lemma groupby_ok rows : grouped same key rows (groupby eqb key rows).
Proof.
  assert (H : keys_ok rows (fold_left group_step rows [])).
  { apply (keys_fold rows [] []). split; [constructor|]. split; [intros k []|intros r k []]. }
  unfold groupby. fold group_step.
  change (fold_left (fun ks r => match key r with Some k => if existsb (eqb k) ks then ks else (ks ++ [k])%list | None => ks end) rows [])
    with (fold_left group_step rows []).
  set (ks := fold_left group_step rows []) in *.
  set (has := fun k r => match key r with Some k' => eqb k k' | None => false end).
  assert (HAS : forall k r, has k r = true <-> exists k', key r = Some k' /\ same k k').
  { intros k r. unfold has. destruct (key r) as [k'|].
    - rewrite eqb_same. split; [intros Q; exists k'; auto|intros (k0 & E & Q); injection E as <-; exact Q].
    - split; [discriminate|intros (k0 & E & _); discriminate]. }
  destruct H as (O & S & C). split; [|split].
  - clear - O. induction O as [|k l F _ IH]; cbn; constructor; [|exact IH].
    apply Forall_map. apply Forall_forall. intros k' I. cbn. rewrite Forall_forall in F. auto.
  - intros k l I. apply in_map_iff in I. destruct I as (k0 & E & I). injection E as <- <-. split.
    + destruct (S k0 I) as (r & J & E). intros N.
      assert (X : In r (filter (has k0) rows)) by (apply filter_In; split; [exact J|]; apply HAS; exists k0; auto).
      change (filter (has k0) rows = []) in N. rewrite N in X. destruct X.
    + apply filter_selected. intros r _. apply HAS.
  - intros r k I E. destruct (C r k I E) as (k' & J & Q). exists k', (filter (has k') rows).
    split; [apply in_map_iff; exists k'; auto|]. split; [exact Q|]. apply filter_In. split; [exact I|]. apply HAS. eauto.
Qed.
End Group.

(** ** Means *)

Lemma sum_fin l : forall a, exists s, fold_left nadd (map Fin l) (Fin a) = Fin s /\ (s == a + fold_right Qplus 0 l)%Q.
Proof.
  induction l as [|x l IH]; intros a; cbn.
  - exists a. split; [reflexivity|]. ring.
  - destruct (IH (a + x)%Q) as (s & E & Q). exists s. split; [exact E|]. rewrite Q. ring.
Qed.

Lemma mean_ok (l : list num) (qs : list Q) :
  filter (fun x => match x with NaN => false | _ => true end) l = map Fin qs -> is_mean qs (mean l).
Proof.
  intros E. unfold mean. rewrite E. destruct qs as [|q qs]; [reflexivity|]. cbn [map].
  change (Fin q :: map Fin qs) with (map Fin (q :: qs)). destruct (sum_fin (q :: qs) 0%Q) as (s & -> & Q).
  unfold is_mean. eexists. split; [reflexivity|]. rewrite map_length.
  transitivity s; [|rewrite Q; ring]. field. intros H. cbn [List.length] in H.
  unfold Qeq in H. cbn in H. lia.
Qed.

Lemma mean_map {A} (f : A -> num) (g : A -> Q) (P : A -> Prop) l sub : selected P l sub ->
  (forall x, In x l -> P x -> f x = Fin (g x)) -> (forall x, In x l -> ~ P x -> f x = NaN) -> is_mean (map g sub) (mean (map f l)).
Proof.
  intros S F N. apply mean_ok. induction S as [|x l sub p S IH|x l sub p S IH]; [reflexivity| |]; cbn [map filter].
  - rewrite (F x) by (cbn; auto). cbn [map]. f_equal. apply IH; intros; [apply F|apply N]; cbn; auto.
  - rewrite (N x) by (cbn; auto). apply IH; intros; [apply F|apply N]; cbn; auto.
Qed.

Lemma sum_inf l : (forall x, In x l -> x <> NaN /\ x <> Inf false) -> forall a, a = Inf true \/ (exists q, a = Fin q) /\ In (Inf true) l ->
  fold_left nadd l a = Inf true.
Proof.
  induction l as [|x l IH]; intros N a H; cbn.
  - destruct H as [->|(_ & [])]. reflexivity.
  - apply IH; [intros; apply N; cbn; auto|]. destruct (N x (or_introl eq_refl)) as (N1 & N2). destruct H as [->|((q & ->) & I)].
    + left. destruct x as [|y|[|]]; [congruence|reflexivity|reflexivity|congruence].
    + destruct x as [|y|[|]]; [congruence| |left; reflexivity|congruence].
      right. split; [cbn; eauto|]. destruct I as [I|I]; [discriminate I|exact I].
Qed.

Lemma mean_inf {A} (f : A -> num) l : (exists x, In x l /\ f x = Inf true) -> (forall x, In x l -> f x <> Inf false) ->
  mean (map f l) = Inf true.
Proof.
  intros (x & I & E) N. unfold mean.
  set (l' := filter _ _).
  assert (I' : In (Inf true) l') by (apply filter_In; split; [apply in_map_iff; eauto|reflexivity]).
  assert (S : fold_left nadd l' (Fin 0) = Inf true).
  { apply sum_inf; [|right; eauto]. intros y Y. apply filter_In in Y as (Y & T). apply in_map_iff in Y as (z & <- & Z).
    split; [intros X; rewrite X in T; discriminate|apply N; exact Z]. }
  rewrite S. destruct l'; [destruct I'|reflexivity].
Qed.

(** ** Gaps *)

Lemma gap_at_zero u l : (l == 0)%Q ->
  ((0 < u)%Q -> ndiv (nsub (Fin u) (Fin l)) (Fin l) = Inf true) /\
  ((u < 0)%Q -> ndiv (nsub (Fin u) (Fin l)) (Fin l) = Inf false) /\
  ((u == 0)%Q -> ndiv (nsub (Fin u) (Fin l)) (Fin l) = NaN).
Proof.
  intros E. cbn. rewrite (proj2 (Qeq_bool_iff l 0) E). assert (D : (u - l == u)%Q) by (rewrite E; ring).
  split; [|split]; intros H.
  - destruct (Qeq_bool (u - l) 0) eqn:X; [apply Qeq_bool_eq in X; rewrite D in X; rewrite X in H; discriminate H|].
    rewrite (proj2 (Qle_bool_iff 0 (u - l))); [reflexivity|]. rewrite D. apply Qlt_le_weak. exact H.
  - destruct (Qeq_bool (u - l) 0) eqn:X; [apply Qeq_bool_eq in X; rewrite D in X; rewrite X in H; discriminate H|].
    destruct (Qle_bool 0 (u - l)) eqn:Y; [|reflexivity]. apply Qle_bool_iff in Y. rewrite D in Y.
    destruct (Qlt_not_le _ _ H Y).
  - rewrite (proj2 (Qeq_bool_iff (u - l) 0)); [reflexivity|]. rewrite D. exact H.
Qed.

Lemma gap_not_below u l : ((l == 0)%Q -> (0 <= u)%Q) -> ndiv (nsub (Fin u) (Fin l)) (Fin l) <> Inf false.
Proof.
  intros H. destruct (Qeq_dec l 0) as [E|E].
  - destruct (gap_at_zero u l E) as (P & _ & Z). specialize (H E). apply Qle_lteq in H as [H|H].
    + rewrite (P H). discriminate.
    + rewrite Z by (symmetry; exact H). discriminate.
  - cbn. destruct (Qeq_bool l 0) eqn:X; [apply Qeq_bool_eq in X; contradiction|discriminate].
Qed.

Lemma qeqb a b : Qeq_bool a b = true <-> (a == b)%Q.
Proof. split; [apply Qeq_bool_eq|apply Qeq_eq_bool]. Qed.

Lemma zero_gap u l : is_zero (ndiv (nsub (Fin u) (Fin l)) (Fin l)) = true <-> (u == l)%Q /\ ~ (l == 0)%Q.
Proof.
  cbn. destruct (Qeq_bool l 0) eqn:E.
  - apply qeqb in E. assert (F : is_zero (if Qeq_bool (u - l) 0 then NaN else Inf (Qle_bool 0 (u - l))) = false)
      by (destruct (Qeq_bool (u - l) 0); reflexivity).
    rewrite F. split; [discriminate|tauto].
  - assert (N : ~ (l == 0)%Q) by (intros H; apply qeqb in H; congruence). cbn. rewrite qeqb. split.
    + intros H. split; [|exact N]. assert (H' : (u - l == 0)%Q).
      { transitivity ((u - l) / l * l)%Q; [field; exact N|]. rewrite H. ring. }
      transitivity (u - l + l)%Q; [ring|]. rewrite H'. ring.
    + intros (H & _). rewrite H. field. exact N.
Qed.

Lemma tailing_optimal_ok r : tailing_optimal r = true <-> (t_upper r == t_lower r)%Q /\ ~ (t_lower r == 0)%Q.
Proof. apply zero_gap. Qed.

Lemma set_to_nan_big q : set_to_nan q = NaN <-> (q == big_number)%Q.
Proof.
  unfold set_to_nan. destruct (Qeq_bool q big_number) eqn:E.
  - split; [intros _; apply qeqb; exact E|reflexivity].
  - split; [discriminate|intros H; apply qeqb in H; congruence].
Qed.

Lemma cc_optimal_ok r : cc_optimal r = true <->
  exists cost, solved_with_cost r cost /\ ~ (cost == 0)%Q /\ ~ (cost == big_number)%Q.
Proof.
  unfold cc_optimal, cc_gap, solved_with_cost. rewrite andb_true_iff.
  unfold status_optimal, status_infeasible. rewrite Z.eqb_eq. split.
  - intros (G & S). rewrite S in G. cbn [Z.eqb Pos.eqb] in G.
    unfold set_to_nan in G.
    destruct (Qeq_bool (t_upper r) big_number) eqn:U; [discriminate G|].
    destruct (Qeq_bool (t_lower r) big_number) eqn:L; [discriminate G|].
    apply zero_gap in G. destruct G as (G & N). exists (t_lower r). split; [split; [exact S|split; [reflexivity|exact G]]|].
    split; [exact N|]. intros H. apply qeqb in H. congruence.
  - intros (c & (S & L & U) & N & B). split; [|exact S]. rewrite S. cbn [Z.eqb Pos.eqb]. unfold set_to_nan.
    destruct (Qeq_bool (t_upper r) big_number) eqn:EU; [apply qeqb in EU; rewrite U in EU; contradiction|].
    destruct (Qeq_bool (t_lower r) big_number) eqn:EL; [apply qeqb in EL; rewrite L in EL; contradiction|].
    apply zero_gap. rewrite U, L. split; [reflexivity|exact N].
Qed.

Lemma cc_gap_known r : ~ (t_lower r == 0)%Q -> has_bounds r -> cc_gap r = Fin ((t_upper r - t_lower r) / t_lower r).
Proof.
  intros N (S & L & U). unfold cc_gap, status_infeasible. destruct (Z.eqb_spec (t_status r) 12); [contradiction|].
  unfold set_to_nan.
  destruct (Qeq_bool (t_upper r) big_number) eqn:EU; [apply qeqb in EU; contradiction|].
  destruct (Qeq_bool (t_lower r) big_number) eqn:EL; [apply qeqb in EL; contradiction|].
  cbn. destruct (Qeq_bool (t_lower r) 0) eqn:E0; [apply qeqb in E0; contradiction|reflexivity].
Qed.

Lemma cc_gap_bounds r : has_bounds r -> cc_gap r = ndiv (nsub (Fin (t_upper r)) (Fin (t_lower r))) (Fin (t_lower r)).
Proof.
  intros (S & L & U). unfold cc_gap, status_infeasible. destruct (Z.eqb_spec (t_status r) 12); [contradiction|].
  unfold set_to_nan.
  destruct (Qeq_bool (t_upper r) big_number) eqn:EU; [apply qeqb in EU; contradiction|].
  destruct (Qeq_bool (t_lower r) big_number) eqn:EL; [apply qeqb in EL; contradiction|reflexivity].
Qed.

Lemma cc_gap_unknown r : ~ has_bounds r -> cc_gap r = NaN.
Proof.
  intros H. unfold cc_gap, status_infeasible. destruct (Z.eqb_spec (t_status r) 12); [reflexivity|].
  unfold set_to_nan.
  destruct (Qeq_bool (t_upper r) big_number) eqn:EU; [reflexivity|].
  destruct (Qeq_bool (t_lower r) big_number) eqn:EL; [reflexivity|].
  destruct H. split; [assumption|]. split; intros X; apply qeqb in X; congruence.
Qed.

Lemma has_bounds_dec r : has_bounds r \/ ~ has_bounds r.
Proof.
  unfold has_bounds. destruct (Z.eq_dec (t_status r) 12); [tauto|].
  destruct (Qeq_dec (t_lower r) big_number); [tauto|]. destruct (Qeq_dec (t_upper r) big_number); tauto.
Qed.

(** ** Lines *)

Lemma is_mean_eq {A} (f g : A -> Q) l m : (forall x, In x l -> (f x == g x)%Q) -> is_mean (map f l) m -> is_mean (map g l) m.
Proof.
  intros H M. assert (S : (fold_right Qplus 0 (map f l) == fold_right Qplus 0 (map g l))%Q).
  { clear M. induction l as [|x l IH]; [reflexivity|]. cbn. rewrite (H x) by (cbn; auto).
    rewrite IH by (intros; apply H; cbn; auto). reflexivity. }
  destruct l as [|x l]; [exact M|]. destruct M as (q & E & Q). exists q. split; [exact E|].
  rewrite map_length in *. rewrite Q. exact S.
Qed.

Lemma mean_all {A} (f : A -> num) (g : A -> Q) l : (forall x, In x l -> f x = Fin (g x)) -> is_mean (map g l) (mean (map f l)).
Proof.
  intros H. apply mean_map with (P := fun x => In x l).
  - pose proof (filter_selected (fun x : A => In x l) (fun _ => true) l) as S.
    assert (E : filter (fun _ : A => true) l = l) by (clear; induction l; cbn; congruence).
    rewrite E in S. apply S. tauto.
  - auto.
  - tauto.
Qed.

Lemma sum_plus {A} (f g : A -> Q) l :
  (fold_right Qplus 0 (map (fun x => f x + g x) l) == fold_right Qplus 0 (map f l) + fold_right Qplus 0 (map g l))%Q.
Proof. induction l as [|x l IH]; cbn; [reflexivity|]. rewrite IH. ring. Qed.

Lemma mean_sum {A} (f g h : A -> Q) l a b : l <> [] -> (forall x, In x l -> (h x == f x + g x)%Q) ->
  is_mean (map f l) a -> is_mean (map g l) b -> exists q, nadd a b = Fin q /\ is_mean (map h l) (Fin q).
Proof.
  intros N H A1 B1. destruct l as [|x l]; [contradiction|].
  destruct A1 as (p & -> & P), B1 as (q & -> & Q). exists (p + q)%Q. split; [reflexivity|].
  apply (is_mean_eq (fun y => f y + g y)%Q); [intros y I; symmetry; apply H; exact I|].
  exists (p + q)%Q. split; [reflexivity|]. rewrite !map_length in *. rewrite (sum_plus f g (x :: l)). rewrite <- P, <- Q. ring.
Qed.

Lemma tailing_line_right l :
  tailing_line_ok l (mkTailing (mean (map (fun r => nint (t_duration r)) l)) (mean (map tailing_gap l))
      (count tailing_optimal l) (count t_feasible l) (mean (map (fun r => nint (t_nodes r)) l)) (mean (map num_secs l))).
Proof.
  split; cbn.
  - apply count_ok. intros r _. apply tailing_optimal_ok.
  - apply count_ok. tauto.
  - intros N. apply mean_all. intros r I. unfold tailing_gap. cbn.
    destruct (Qeq_bool (t_lower r) 0) eqn:E; [apply qeqb in E; destruct (N r I E)|reflexivity].
  - intros (r & I & L & U) N. apply mean_inf.
    + exists r. split; [exact I|]. apply (gap_at_zero _ _ L). exact U.
    + intros x X. apply gap_not_below. apply N. exact X.
  - apply mean_all. reflexivity.
  - apply mean_all. reflexivity.
  - intros N. assert (Z0 : forall r, In r l -> Qeq_bool (inject_Z (t_nodes r)) 0 = false).
    { intros r I. destruct (Qeq_bool (inject_Z (t_nodes r)) 0) eqn:E; [|reflexivity]. apply qeqb in E.
      unfold Qeq in E. cbn in E. destruct (N r I). lia. }
    apply (is_mean_eq (fun r => inject_Z (t_sec_disjoint r) / inject_Z (t_nodes r) + inject_Z (t_sec_maxflow r) / inject_Z (t_nodes r))%Q).
    + intros r I. rewrite inject_Z_plus. field. intros E. apply qeqb in E. rewrite (Z0 r I) in E. discriminate.
    + apply mean_all. intros r I. unfold num_secs, nint, ndiv. rewrite (Z0 r I). reflexivity.
Qed.

Lemma selected_map {A B} (f : A -> B) (P : B -> Prop) l sub : selected (fun x => P (f x)) l sub -> selected P (map f l) (map f sub).
Proof. induction 1; cbn; [constructor|apply sel_keep|apply sel_drop]; assumption. Qed.

Lemma selected_exists {A} (P : A -> Prop) l : (forall x, In x l -> P x \/ ~ P x) -> exists sub, selected P l sub.
Proof.
  induction l as [|x l IH]; intros D; [exists []; constructor|].
  destruct IH as (sub & S); [intros; apply D; cbn; auto|].
  destruct (D x (or_introl eq_refl)); [exists (x :: sub); apply sel_keep|exists sub; apply sel_drop]; assumption.
Qed.

Lemma count_map {A B} (f : B -> bool) (g : A -> B) l : count (fun x => f (g x)) l = count f (map g l).
Proof. unfold count. induction l as [|x l IH]; [reflexivity|]. cbn. destruct (f (g x)); cbn; congruence. Qed.

Lemma cc_line_right (x : list (table_row * cc_name)) : cc_line_ok (map fst x) (cc_aggregate x).
Proof.
  assert (COL : forall f, mean (map (fun y : table_row * cc_name => f (fst y)) x) = mean (map f (map fst x))).
  { intros f. rewrite map_map. reflexivity. }
  unfold cc_aggregate.
  rewrite (COL (fun r => nint (t_duration r))), (COL (fun r => set_to_nan (t_lower r))), (COL (fun r => set_to_nan (t_upper r))),
    (COL cc_gap), (COL (fun r => nint (t_pre_disjoint r))), (COL (fun r => nint (t_pre_shortest r))).
  replace (count (fun y : table_row * cc_name => cc_optimal (fst y)) x) with (count cc_optimal (map fst x)) by (symmetry; apply count_map).
  replace (count (fun y : table_row * cc_name => t_feasible (fst y)) x) with (count t_feasible (map fst x)) by (symmetry; apply count_map).
  generalize (map fst x) as l. clear. intros l.
  split; cbn [cl_duration cl_lower cl_upper cl_gap cl_optimal cl_feasible cl_presolve].
  - apply count_ok. intros r _. apply cc_optimal_ok.
  - apply count_ok. tauto.
  - intros N. destruct (selected_exists has_bounds l) as (sub & S); [intros; apply has_bounds_dec|].
    exists sub. split; [exact S|]. apply (mean_map _ _ _ _ _ S).
    + intros r I B. apply cc_gap_known; auto.
    + intros r _. apply cc_gap_unknown.
  - intros (r & I & B & L & U) N. apply mean_inf.
    + exists r. split; [exact I|]. rewrite (cc_gap_bounds r B). apply (gap_at_zero _ _ L). exact U.
    + intros x X. destruct (has_bounds_dec x) as [Y|Y]; [|rewrite (cc_gap_unknown x Y); discriminate].
      rewrite (cc_gap_bounds x Y). apply gap_not_below. apply N; assumption.
  - destruct (selected_exists (fun r => ~ (t_lower r == big_number)%Q) l) as (sub & S).
    { intros r _. destruct (Qeq_dec (t_lower r) big_number); tauto. }
    exists sub. split; [exact S|]. apply (mean_map _ _ _ _ _ S).
    + intros r _ B. unfold set_to_nan. destruct (Qeq_bool _ _) eqn:E; [apply qeqb in E; contradiction|reflexivity].
    + intros r _ B. apply set_to_nan_big. destruct (Qeq_dec (t_lower r) big_number); tauto.
  - destruct (selected_exists (fun r => ~ (t_upper r == big_number)%Q) l) as (sub & S).
    { intros r _. destruct (Qeq_dec (t_upper r) big_number); tauto. }
    exists sub. split; [exact S|]. apply (mean_map _ _ _ _ _ S).
    + intros r _ B. unfold set_to_nan. destruct (Qeq_bool _ _) eqn:E; [apply qeqb in E; contradiction|reflexivity].
    + intros r _ B. apply set_to_nan_big. destruct (Qeq_dec (t_upper r) big_number); tauto.
  - apply mean_all. reflexivity.
  - intros N. apply (mean_sum (fun r => inject_Z (t_pre_disjoint r)) (fun r => inject_Z (t_pre_shortest r))); [exact N| | |].
    + intros r _. rewrite inject_Z_plus. reflexivity.
    + apply mean_all. reflexivity.
    + apply mean_all. reflexivity.
Qed.

(** ** Tables *)

Lemma tailing_table_ok rows : exists groups, grouped same_tailing tailing_group rows groups /\
  Forall2 (fun g t => fst g = fst t /\ tailing_line_ok (snd g) (snd t)) groups (tailing_off_table rows).
Proof.
  exists (groupby tailing_key_eqb tailing_key rows). split.
  - change tailing_group with tailing_key. apply groupby_ok.
    + intros (((a & b) & c) & d) (((a' & b') & c') & d'). cbn. rewrite !andb_true_iff, !Z.eqb_eq, qeqb. tauto.
    + intros (((a & b) & c) & d). cbn. repeat split; reflexivity.
    + intros (((a & b) & c) & d) (((a' & b') & c') & d') (-> & -> & E & ->). cbn. repeat split; auto. symmetry. exact E.
  - unfold tailing_off_table. induction (groupby tailing_key_eqb tailing_key rows) as [|(k, l) g IH]; [constructor|].
    cbn [map]. constructor; [|exact IH]. split; [reflexivity|]. apply tailing_line_right.
Qed.

Lemma cc_name_right r n : cover_name r n -> get_cc_name (t_disjoint r) (t_shortest r) = Ok n.
Proof. unfold cover_name, get_cc_name. destruct n; intros (-> & ->); reflexivity. Qed.

Lemma cc_named rows : (forall r, In r rows -> exists n, cover_name r n) ->
  exists named, mapM (fun r => do n <- get_cc_name (t_disjoint r) (t_shortest r); Ok (r, n)) rows = Ok named /\
    map fst named = rows /\ Forall (fun x => cover_name (fst x) (snd x)) named.
Proof.
  induction rows as [|r rows IH]; intros H; [exists []; repeat split; constructor|].
  destruct (H r (or_introl eq_refl)) as (n & N). destruct IH as (named & E & M & F); [intros; apply H; cbn; auto|].
  exists ((r, n) :: named). cbn [mapM]. rewrite (cc_name_right r n N). cbn [bind]. rewrite E. split; [reflexivity|].
  split; [cbn; congruence|constructor; assumption].
Qed.

Lemma selected_filter2 {A} (P Q : A -> Prop) (f g : A -> bool) l : (forall x, f x = true <-> P x) -> (forall x, g x = true <-> Q x) ->
  selected (fun x => P x /\ Q x) l (filter g (filter f l)).
Proof.
  intros F G. induction l as [|x l IH]; [constructor|]. cbn. destruct (f x) eqn:E.
  - apply F in E. cbn. destruct (g x) eqn:E'.
    + apply sel_keep; [split; [exact E|apply G; exact E']|exact IH].
    + apply sel_drop; [intros (_ & q); apply G in q; congruence|exact IH].
  - apply sel_drop; [intros (p & _); apply F in p; congruence|exact IH].
Qed.

Lemma map_fst_filter {A B} (g : A -> bool) (l : list (A * B)) : map fst (filter (fun x => g (fst x)) l) = filter g (map fst l).
Proof. induction l as [|(a, b) l IH]; [reflexivity|]. cbn. destruct (g a); cbn; congruence. Qed.

Lemma cc_key_group d e : e = CostCover \/ e = CcLondonaqAlpha -> forall x, cc_key d e x = cc_group d e x.
Proof. intros [->| ->] (r, n); destruct d; cbn; try reflexivity; destruct (t_alpha r); reflexivity. Qed.

Lemma groupby_ext {K R} (eqb : K -> K -> bool) (k1 k2 : R -> option K) rows : (forall r, k1 r = k2 r) ->
  groupby eqb k1 rows = groupby eqb k2 rows.
Proof.
  intros H. unfold groupby. assert (E : forall ks, fold_left (fun ks r => match k1 r with
      | Some k => if existsb (eqb k) ks then ks else (ks ++ [k])%list | None => ks end) rows ks =
    fold_left (fun ks r => match k2 r with
      | Some k => if existsb (eqb k) ks then ks else (ks ++ [k])%list | None => ks end) rows ks).
  { induction rows as [|r l IH]; intros ks; [reflexivity|]. cbn. rewrite H. apply IH. }
  rewrite E. apply map_ext. intros k. f_equal. apply filter_ext. intros r. rewrite H. reflexivity.
Qed.

Lemma cost_cover_table_ok d e rows : e = CostCover \/ e = CcLondonaqAlpha ->
  (forall r, In r rows -> t_cost_function r <> "SEMI_MST"%string -> exists n, cover_name r n) ->
  exists sub named groups t, cost_cover_table d e rows = Ok t /\
    selected (fun r => t_cost_function r <> "SEMI_MST"%string /\ (d = Londonaq -> t_graph r <> "laqtinyA"%string)) rows sub /\
    map fst named = sub /\ Forall (fun x => cover_name (fst x) (snd x)) named /\
    grouped eq (cc_group d e) named groups /\
    Forall2 (fun g c => fst g = fst c /\ cc_line_ok (map fst (snd g)) (snd c)) groups t.
Proof.
  intros EE H. set (f := fun r => negb (String.eqb (t_cost_function r) "SEMI_MST")).
  assert (F : forall r, f r = true <-> t_cost_function r <> "SEMI_MST"%string).
  { intros r. unfold f. rewrite negb_true_iff. apply String.eqb_neq. }
  destruct (cc_named (filter f rows)) as (named & E & M & C).
  { intros r I. apply filter_In in I. destruct I as (I & J). apply H; [exact I|apply F; exact J]. }
  set (g := fun r => match d with Londonaq => negb (String.eqb (t_graph r) "laqtinyA") | Tspwplib => true end).
  assert (G : forall r, g r = true <-> (d = Londonaq -> t_graph r <> "laqtinyA"%string)).
  { intros r. unfold g. destruct d.
    - rewrite negb_true_iff, String.eqb_neq. split; auto.
    - split; [intros _ X; discriminate|reflexivity]. }
  set (kept := filter (fun x => g (fst x)) named).
  assert (KE : match d with Londonaq => filter (fun x => negb (String.eqb (t_graph (fst x)) "laqtinyA")) named | Tspwplib => named end = kept).
  { unfold kept, g. destruct d; [reflexivity|]. clear. induction named; cbn; congruence. }
  set (groups := groupby cc_key_eqb (cc_key d e) kept).
  exists (filter g (filter f rows)), kept, groups, (map (fun '(k, l) => (k, cc_aggregate l)) groups).
  split; [|split; [|split; [|split; [|split]]]].
  - unfold cost_cover_table. fold f. rewrite E. cbn [bind]. rewrite KE. fold groups. destruct EE as [->| ->]; reflexivity.
  - apply selected_filter2; assumption.
  - unfold kept. rewrite map_fst_filter, M. reflexivity.
  - unfold kept. apply Forall_forall. intros x I. apply filter_In in I. rewrite Forall_forall in C. apply C. tauto.
  - unfold groups. rewrite (groupby_ext cc_key_eqb _ _ kept (cc_key_group d e EE)). apply groupby_ok; try congruence.
    intros ((a & b) & c) ((a' & b') & c'). cbn. rewrite !andb_true_iff, String.eqb_eq, Z.eqb_eq. split.
    + intros ((-> & ->) & X). destruct c, c'; try discriminate; reflexivity.
    + intros X. injection X as -> -> ->. destruct c'; auto.
  - clear. induction groups as [|(k, l) gs IH]; [constructor|]. cbn [map]. constructor; [|exact IH].
    split; [reflexivity|]. apply cc_line_right.
Qed.

Lemma cost_cover_other d e rows : e <> CostCover -> e <> CcLondonaqAlpha ->
  (forall r, In r rows -> t_cost_function r <> "SEMI_MST"%string -> exists n, cover_name r n) ->
  cost_cover_table d e rows = Throw UnboundLocalErrorPy.
Proof.
  intros E1 E2 H. unfold cost_cover_table.
  destruct (cc_named (filter (fun r => negb (String.eqb (t_cost_function r) "SEMI_MST")) rows)) as (named & E & _).
  { intros r I. apply filter_In in I. destruct I as (I & J). apply H; [exact I|].
    apply negb_true_iff in J. apply String.eqb_neq. exact J. }
  rewrite E. cbn [bind]. destruct e; try reflexivity; contradiction.
Qed.

(** ** From the files *)

Lemma opt_int o : as_opt as_int (copt CInt o) = Some o.
Proof. destruct o; reflexivity. Qed.
Lemma opt_bool o : as_opt as_bool (copt CBool o) = Some o.
Proof. destruct o; reflexivity. Qed.
Lemma opt_str o : as_opt as_str (copt CStr o) = Some o.
Proof. destruct o; reflexivity. Qed.

Lemma read_vial_row v r s :
  read_row (combine (vial_columns ++ result_columns ++ stats_columns) (vial_cells v ++ result_cells v r ++ stats_cells s)%list) =
  Ok (vial_row (v, r, s)).
Proof.
  unfold read_row, get_col. cbv [vial_columns result_columns stats_columns vial_cells result_cells stats_cells app combine rget String.eqb Ascii.eqb Bool.eqb].
  cbn [as_str as_int as_num as_bool as_time]. rewrite !opt_int, !opt_bool. cbn [bind].
  unfold vial_row. destruct (mp_lp_gap (fp_model (fv_params v))); reflexivity.
Qed.

Lemma read_table F vials : mapM read_row (f_rows (branch_cut_table F vials)) = Ok (map vial_row (with_stats F vials)).
Proof.
  unfold branch_cut_table. cbn [f_rows]. induction (with_stats F vials) as [|((v & r) & s) l IH]; [reflexivity|].
  cbn [map mapM]. rewrite read_vial_row. cbn [bind]. rewrite IH. reflexivity.
Qed.

(** ** Heuristics *)

Lemma opt_eqb_ok {A} (eqb : A -> A -> bool) (H : forall a b, eqb a b = true <-> a = b) x y : opt_eqb eqb x y = true <-> x = y.
Proof. destruct x, y; cbn; try rewrite H; split; congruence. Qed.

Lemma join_key_ok x y : join_key_eqb x y = true <-> x = y.
Proof.
  destruct x as ((((a & b) & c) & d) & e), y as ((((a' & b') & c') & d') & e'). cbn [join_key_eqb].
  rewrite !andb_true_iff, !String.eqb_eq, !Z.eqb_eq, opt_eqb_ok.
  - split; [intros ((((-> & ->) & ->) & ->) & ->); reflexivity|]. intros E. injection E as -> -> -> -> ->. auto.
  - intros ((g & k) & f) ((g' & k') & f'). rewrite !andb_true_iff, String.eqb_eq, !opt_eqb_ok;
      [|apply Z.eqb_eq|apply String.eqb_eq]. split; [intros ((-> & ->) & ->); reflexivity|intros E; injection E as -> -> ->; auto].
Qed.

Lemma heur_exact_key d h e : heur_key d h = exact_key d e <-> same_instance d h e.
Proof.
  unfold heur_key, exact_key, same_instance. split.
  - intros E. destruct d; inversion E; do 4 (split; [reflexivity|]); intros X; [discriminate X|auto].
  - intros (-> & -> & -> & -> & T). destruct d; [reflexivity|]. destruct (T eq_refl) as (-> & -> & ->). reflexivity.
Qed.

Lemma run_key_ok d x y : run_key_eqb d x y = true <-> same_run d x y.
Proof.
  unfold run_key_eqb. rewrite !andb_true_iff, join_key_ok, String.eqb_eq, !opt_eqb_ok; [|apply Bool.eqb_true_iff|apply Z.eqb_eq..].
  unfold heur_key, same_run. split.
  - intros ((((E & ?) & ?) & ?) & ?). destruct d; inversion E; do 4 (split; [reflexivity|]);
      (split; [intros X; first [discriminate X | auto]|auto]).
  - intros (-> & -> & -> & -> & T & -> & -> & -> & ->). destruct d; [auto|]. destruct (T eq_refl) as (-> & -> & ->). auto.
Qed.

Section Drop.
Context {R : Type} (eqb : R -> R -> bool) (same : R -> R -> Prop).
Hypothesis eqb_same : forall a b, eqb a b = true <-> same a b.
Hypothesis same_refl : forall a, same a a.
Hypothesis same_trans : forall a b c, same a b -> same b c -> same a c.

Lemma drop_fold rows : forall seen kept,
  (forall y, In y kept -> In y seen) -> (forall y, In y seen -> exists z, In z kept /\ same y z) ->
  exists sub, firsts same seen rows sub /\
    fold_left (fun kept r => if existsb (eqb r) kept then kept else (kept ++ [r])%list) rows kept = (kept ++ sub)%list.
Proof.
  induction rows as [|r rows IH]; intros seen kept S1 S2.
  - exists []. split; [constructor|]. cbn. symmetry. apply app_nil_r.
  - cbn [fold_left]. destruct (existsb (eqb r) kept) eqn:E.
    + apply existsb_exists in E. destruct E as (y & I & Y). apply eqb_same in Y.
      destruct (IH (seen ++ [r])%list kept) as (sub & F & Q).
      * intros z Z0. apply in_or_app. auto.
      * intros z Z0. apply in_app_or in Z0. destruct Z0 as [Z0|[<-|[]]]; [auto|]. exists y. auto.
      * exists sub. split; [|exact Q]. eapply firsts_drop; [apply S1; exact I|exact Y|exact F].
    + destruct (IH (seen ++ [r])%list (kept ++ [r])%list) as (sub & F & Q).
      * intros z Z0. apply in_app_or in Z0. apply in_or_app. destruct Z0 as [Z0|[<-|[]]]; [auto|]. right. cbn. auto.
      * intros z Z0. apply in_app_or in Z0. destruct Z0 as [Z0|[<-|[]]].
        -- destruct (S2 z Z0) as (w & W & Q). exists w. split; [apply in_or_app; auto|exact Q].
        -- exists r. split; [apply in_or_app; cbn; auto|apply same_refl].
      * exists (r :: sub). split.
        -- apply firsts_keep; [|exact F]. intros y I Y. destruct (S2 y I) as (z & Z0 & Q0).
           assert (X : existsb (eqb r) kept = true) by (apply existsb_exists; exists z; split; [exact Z0|apply eqb_same; eauto]).
           congruence.
        -- rewrite Q, <- app_assoc. reflexivity.
Qed.

Lemma drop_ok rows : firsts same [] rows (drop_duplicates eqb rows).
Proof.
  destruct (drop_fold rows [] []) as (sub & F & Q); [intros y []|intros y []|].
  unfold drop_duplicates. cbn in Q. rewrite Q. exact F.
Qed.
End Drop.

(** The matching rows of a table without duplicates. *)
Lemma firsts_filter {A} (same : A -> A -> Prop) (f : A -> bool) seen l sub : firsts same seen l sub ->
  (forall a b, f a = true -> f b = true -> same a b) -> (forall a b, same a b -> f a = f b) ->
  (exists y, In y seen /\ f y = true) /\ filter f sub = [] \/
  (forall y, In y seen -> f y = false) /\ filter f sub = match find f l with Some e => [e] | None => [] end.
Proof.
  intros F S1 S2. induction F as [seen|seen x l sub N F IH|seen x y l sub I S F IH].
  - destruct (existsb f seen) eqn:E.
    + apply existsb_exists in E. left. auto.
    + right. split; [|reflexivity]. intros y Y. destruct (f y) eqn:Q; [|reflexivity].
      assert (existsb f seen = true) by (apply existsb_exists; eauto). congruence.
  - cbn. destruct (f x) eqn:E.
    + destruct IH as [((y & Y & Q) & IH)|(IH & _)].
      * right. split; [|rewrite IH; reflexivity]. intros z Z0. destruct (f z) eqn:Q0; [|reflexivity].
        destruct (N z Z0). apply S1; assumption.
      * specialize (IH x ltac:(apply in_or_app; cbn; auto)). congruence.
    + destruct IH as [((y & Y & Q) & IH)|(IH & Q)].
      * apply in_app_or in Y. destruct Y as [Y|[<-|[]]]; [left; eauto|congruence].
      * right. split; [|exact Q]. intros z Z0. apply IH. apply in_or_app. auto.
  - cbn. pose proof (S2 x y S) as SY. destruct IH as [((z & Z0 & Q) & IH)|(IH & Q)].
    + left. split; [|exact IH]. apply in_app_or in Z0. destruct Z0 as [Z0|[<-|[]]]; [eauto|].
      exists y. split; [exact I|congruence].
    + right. split; [intros z Z0; apply IH; apply in_or_app; auto|]. rewrite Q.
      rewrite (IH x) by (apply in_or_app; cbn; auto). reflexivity.
Qed.

Lemma find_split {A} (f : A -> bool) l : match find f l with
  | Some e => exists l1 l2, l = (l1 ++ e :: l2)%list /\ f e = true /\ forall x, In x l1 -> f x = false
  | None => forall x, In x l -> f x = false end.
Proof.
  induction l as [|x l IH]; [intros x []|]. cbn. destruct (f x) eqn:E.
  - exists [], l. split; [reflexivity|]. split; [exact E|intros y []].
  - destruct (find f l) as [e|].
    + destruct IH as (l1 & l2 & -> & F & H). exists (x :: l1), l2. split; [reflexivity|]. split; [exact F|].
      intros y [<-|I]; auto.
    + intros y [<-|I]; auto.
Qed.

Lemma find_filter {A} (f g : A -> bool) l : find f (filter g l) = find (fun x => f x && g x) l.
Proof. induction l as [|x l IH]; [reflexivity|]. cbn. destruct (g x) eqn:E; cbn; rewrite ?E, IH; destruct (f x); reflexivity. Qed.

Lemma join_row_ok h x : (forall p, x <> Inf p) -> (forall p, h_objective h <> Inf p) -> joined_ok h (join_row h x).
Proof.
  intros NX NH. unfold join_row. split; cbn [j_heur j_lower j_gap j_optimal].
  - reflexivity.
  - intros c b -> -> N. unfold ndiv, nsub. destruct (Qeq_bool b 0) eqn:E; [apply qeqb in E; contradiction|].
    exists ((c - b) / b)%Q. split; [reflexivity|]. field. exact N.
  - intros [-> | ->]; [reflexivity|]. destruct (h_objective h); reflexivity.
  - intros c b -> -> Z. apply gap_at_zero. exact Z.
  - destruct (h_objective h) as [|c|p]; [| |destruct (NH p eq_refl)].
    + cbn. split; [discriminate|]. intros (c & b & X & _). discriminate.
    + destruct x as [|b|p]; [| |destruct (NX p eq_refl)].
      * cbn. split; [discriminate|]. intros (c' & b & _ & X & _). discriminate.
      * cbn. destruct (Qeq_bool b 0) eqn:E.
        -- apply qeqb in E. split.
           ++ destruct (Qeq_bool (c - b) 0); discriminate.
           ++ intros (c' & b' & _ & X & _ & N). injection X as <-. contradiction.
        -- assert (N : ~ (b == 0)%Q) by (intros X; apply qeqb in X; congruence). cbn. rewrite qeqb. split.
           ++ intros X. exists c, b. repeat (split; [reflexivity|]). split; [|exact N].
              assert (Y : ((c - b) / b * b == 0 * b)%Q) by (rewrite X; reflexivity).
              assert (Z0 : ((c - b) / b * b == c - b)%Q) by (field; exact N). rewrite Z0 in Y. rewrite Qmult_0_l in Y.
              rewrite <- (Qplus_0_l b), <- Y. ring.
           ++ intros (c' & b' & X & Y & Q & _). injection X as <-. injection Y as <-. rewrite Q.
              assert (Z0 : (b - b == 0)%Q) by ring. rewrite Z0. field. exact N.
Qed.

Lemma heuristics_df_ok d heur exact : (forall e, In e exact -> e_disjoint e <> None) ->
  (forall h p, In h heur -> h_objective h <> Inf p) ->
  exists runs rows, get_heuristics_df d heur exact = Ok rows /\ firsts (same_run d) [] heur runs /\
    Forall2 (fun h j => bound_of d exact h (j_lower j) /\ joined_ok h j) runs rows.
Proof.
  intros N NI. unfold get_heuristics_df.
  destruct (existsb _ exact) eqn:EX.
  { apply existsb_exists in EX. destruct EX as (e & I & Q). specialize (N e I). destruct (e_disjoint e); [discriminate|contradiction]. }
  set (ds := filter (fun e => truthy (e_disjoint e)) exact).
  set (eq_e := fun a b => join_key_eqb (exact_key d a) (exact_key d b)).
  set (runs := drop_duplicates (run_key_eqb d) heur).
  assert (FR : firsts (same_run d) [] heur runs).
  { apply drop_ok.
    - apply run_key_ok.
    - intros a. unfold same_run. auto 12.
    - intros a b c (A1 & A2 & A3 & A4 & A5 & A6 & A7 & A8 & A9) (B1 & B2 & B3 & B4 & B5 & B6 & B7 & B8 & B9).
      do 4 (split; [congruence|]). split.
      + intros T. destruct (A5 T) as (? & ? & ?), (B5 T) as (? & ? & ?). split; [|split]; congruence.
      + split; [|split; [|split]]; congruence. }
  assert (FE : firsts (fun a b => exact_key d a = exact_key d b) [] ds (drop_duplicates eq_e ds)).
  { apply drop_ok; try congruence. intros a b. apply join_key_ok. }
  exists runs. eexists. split; [reflexivity|]. split; [exact FR|].
  assert (RI : forall h, In h runs -> In h heur).
  { clear - FR. intros h. induction FR; cbn; [intros []|intros [<-|I]; auto|auto]. }
  clear FR. induction runs as [|h runs IH]; [constructor|]. cbn [flat_map].
  specialize (IH (fun x I => RI x (or_intror I))). specialize (RI h (or_introl eq_refl)).
  set (f := fun e => join_key_eqb (heur_key d h) (exact_key d e)).
  destruct (firsts_filter _ f _ _ _ FE) as [((y & [] & _) & _)|(_ & E)].
  { intros a b A B. apply join_key_ok in A. apply join_key_ok in B. congruence. }
  { intros a b A. unfold f. rewrite A. reflexivity. }
  rewrite E. clear E. unfold ds. rewrite find_filter.
  pose proof (find_split (fun e => f e && truthy (e_disjoint e)) exact) as FS.
  destruct (find _ exact) as [e|].
  - cbn [map app]. constructor; [|exact IH]. split.
    + destruct FS as (l1 & l2 & EQ & Fe & Hl). left. exists l1, e, l2. split; [exact EQ|].
      apply andb_true_iff in Fe. destruct Fe as (Fe & Td). apply join_key_ok in Fe. apply heur_exact_key in Fe.
      split; [|split; [exact Fe|split; [|reflexivity]]].
      * assert (In e exact) by (rewrite EQ; apply in_or_app; cbn; auto). specialize (N e H).
        destruct (e_disjoint e) as [[|]|]; [reflexivity|discriminate|contradiction].
      * intros e' I D S. specialize (Hl e' I). cbv beta in Hl. apply heur_exact_key in S. apply join_key_ok in S.
        change (f e' = true) in S. rewrite S, D in Hl. discriminate Hl.
    + apply join_row_ok; [discriminate|intros p; apply NI; exact RI].
  - cbn [app]. constructor; [|exact IH]. split.
    + right. split; [|reflexivity]. intros e I D S. specialize (FS e I). cbv beta in FS. apply heur_exact_key in S. apply join_key_ok in S.
      change (f e = true) in S. rewrite S, D in FS. discriminate FS.
    + apply join_row_ok; [discriminate|intros p; apply NI; exact RI].
Qed.

Lemma short_name_ok name s : In (name, s) names -> short_name name = Ok s.
Proof. unfold names. cbn [In]. intuition (match goal with H : (_, _) = _ |- _ => injection H as <- <- end; reflexivity). Qed.

Lemma heur_line_right l :
  heur_line_ok l (mkHeurLine (count j_optimal l) (count (fun j => h_feasible (j_heur j)) l) (mean (map j_gap l))
      (mean (map (fun j => nint (h_duration (j_heur j))) l))).
Proof.
  split; cbn [hl_optimal hl_feasible hl_gap hl_duration].
  - apply count_ok. tauto.
  - apply count_ok. tauto.
  - intros N. set (g := fun j => match j_gap j with Fin q => q | _ => 0%Q end).
    destruct (selected_exists (fun j => exists q, j_gap j = Fin q) l) as (sub & S).
    { intros j _. destruct (j_gap j); [right|left; eauto|right]; intros (q & X); discriminate. }
    exists sub, (map g sub). split; [exact S|]. split.
    + assert (P : forall j, In j sub -> exists q, j_gap j = Fin q).
      { intros j I. apply (selected_In _ _ _ S) in I. tauto. }
      clear S. induction sub as [|j sub IH]; [constructor|]. cbn. constructor; [|apply IH; intros; apply P; cbn; auto].
      destruct (P j (or_introl eq_refl)) as (q & E). unfold g. rewrite E. reflexivity.
    + apply (mean_map _ _ _ _ _ S).
      * intros j _ (q & E). unfold g. rewrite E. reflexivity.
      * intros j I X. destruct (j_gap j) as [|q|p] eqn:E; [reflexivity|destruct X; eauto|destruct (N j p I E)].
  - apply mean_inf.
  - apply mean_all. reflexivity.
Qed.

Lemma selected_filter3 {A} (P Q S : A -> Prop) (f g h : A -> bool) l : (forall x, f x = true <-> P x) -> (forall x, g x = true <-> Q x) ->
  (forall x, h x = true <-> S x) -> selected (fun x => P x /\ Q x /\ S x) l (filter h (filter g (filter f l))).
Proof.
  intros F G H. induction l as [|x l IH]; [constructor|]. cbn. destruct (f x) eqn:E.
  - apply F in E. cbn. destruct (g x) eqn:E'.
    + apply G in E'. cbn. destruct (h x) eqn:E''.
      * apply sel_keep; [split; [exact E|split; [exact E'|apply H; exact E'']]|exact IH].
      * apply sel_drop; [intros (_ & _ & q); apply H in q; congruence|exact IH].
    + apply sel_drop; [intros (_ & q & _); apply G in q; congruence|exact IH].
  - apply sel_drop; [intros (p & _); apply F in p; congruence|exact IH].
Qed.

(** The function applied to each group. *)
Definition line_of (x : string * Z * string * list joined) : res (string * Z * string * heur_line) :=
  let '((a, b, alg), l) := x in
  do s <- short_name alg;
  Ok ((a, b, s), mkHeurLine (count j_optimal l) (count (fun j => h_feasible (j_heur j)) l) (mean (map j_gap l))
    (mean (map (fun j => nint (h_duration (j_heur j))) l))).

Lemma lines_groups d e only rows : exists sub groups, heuristics_lines d e only rows = mapM line_of groups /\
  selected (heur_kept d only) rows sub /\ grouped eq (heur_group_of d e) sub groups.
Proof.
  unfold heuristics_lines.
  set (f := fun j => Bool.eqb only (String.eqb (h_algorithm (j_heur j)) "suurballes_extension_collapse")).
  set (g := fun j => negb (String.eqb (h_graph (j_heur j)) "laqtinyA")).
  set (k := fun j => match d with Tspwplib => existsb (String.eqb (h_cost_function (j_heur j))) ["EUC_2D"; "MST"]%string | Londonaq => true end).
  set (sub := filter k (filter g (filter f rows))).
  assert (SE : match d with Tspwplib => filter (fun j => existsb (String.eqb (h_cost_function (j_heur j))) ["EUC_2D"; "MST"]%string) (filter g (filter f rows))
    | Londonaq => filter g (filter f rows) end = sub).
  { unfold sub, k. destruct d; [|reflexivity]. clear. induction (filter g (filter f rows)); cbn; congruence. }
  rewrite SE. clear SE.
  assert (SK : selected (heur_kept d only) rows sub).
  { apply selected_filter3.
    - intros j. unfold f. destruct (String.eqb_spec (h_algorithm (j_heur j)) "suurballes_extension_collapse") as [E|E].
      + destruct only; cbn; intuition congruence.
      + destruct only; cbn; intuition congruence.
    - intros j. unfold g. rewrite negb_true_iff. apply String.eqb_neq.
    - intros j. unfold k. destruct d; [split; [discriminate|reflexivity]|]. cbn [existsb]. rewrite !orb_true_iff, !String.eqb_eq.
      intuition congruence. }
  assert (GE : groupby heur_group_eqb (heur_group d e) sub = groupby heur_group_eqb (heur_group_of d e) sub).
  { apply groupby_ext. intros j. destruct d; cbn; [|destruct (h_kappa (j_heur j)); reflexivity].
    destruct e; reflexivity. }
  rewrite GE. clear GE.
  assert (GO : grouped eq (heur_group_of d e) sub (groupby heur_group_eqb (heur_group_of d e) sub)).
  { apply groupby_ok; try congruence. intros ((a & b) & c) ((a' & b') & c'). cbn.
    rewrite !andb_true_iff, !String.eqb_eq, Z.eqb_eq. intuition congruence. }
  exists sub, (groupby heur_group_eqb (heur_group_of d e) sub). split; [reflexivity|]. auto.
Qed.

Lemma group_algorithm d e j q : heur_group_of d e j = Some q -> snd q = h_algorithm (j_heur j).
Proof.
  unfold heur_group_of. intros Q. destruct d.
  - destruct e; cbn in Q; try (injection Q as <-; reflexivity).
    destruct (h_alpha (j_heur j)); [injection Q as <-; reflexivity|discriminate].
  - destruct (h_kappa (j_heur j)); [injection Q as <-; reflexivity|discriminate].
Qed.

Lemma heuristics_lines_ok d e only rows : (forall j, In j rows -> exists s, In (h_algorithm (j_heur j), s) names) ->
  exists sub groups t, heuristics_lines d e only rows = Ok t /\ selected (heur_kept d only) rows sub /\
    grouped eq (heur_group_of d e) sub groups /\
    Forall2 (fun g c => fst (fst (fst g)) = fst (fst (fst c)) /\ snd (fst (fst g)) = snd (fst (fst c)) /\
      In (snd (fst g), snd (fst c)) names /\ heur_line_ok (snd g) (snd c)) groups t.
Proof.
  intros H. destruct (lines_groups d e only rows) as (sub & gs & E & SK & GO). rewrite E. clear E.
  assert (AL : forall q l, In (q, l) gs -> exists s, In (snd q, s) names).
  { intros q l I. destruct GO as (_ & G2 & _). destruct (G2 q l I) as (NE & S). destruct l as [|j l]; [contradiction|].
    assert (J : In j (j :: l)) by (cbn; auto). apply (selected_In _ _ _ S) in J. destruct J as (J & q' & Q & ->).
    rewrite (group_algorithm d e j q' Q). apply H. apply (selected_In _ _ _ SK) in J. tauto. }
  exists sub, gs. cut (exists t, mapM line_of gs = Ok t /\
    Forall2 (fun g c => fst (fst (fst g)) = fst (fst (fst c)) /\ snd (fst (fst g)) = snd (fst (fst c)) /\
      In (snd (fst g), snd (fst c)) names /\ heur_line_ok (snd g) (snd c)) gs t).
  { intros (t & E & F). exists t. auto. }
  clear GO. induction gs as [|(((a & b) & alg) & l) gs IH]; [exists []; split; [reflexivity|constructor]|].
  destruct (AL (a, b, alg) l) as (s & N); [cbn; auto|]. cbn [snd] in N.
  destruct IH as (t & E & F); [intros q l' I; apply (AL q l'); cbn; auto|].
  eexists. cbn [mapM line_of]. rewrite (short_name_ok alg s N). cbn [bind]. rewrite E. split; [reflexivity|].
  constructor; [|exact F]. cbn [fst snd]. split; [reflexivity|]. split; [reflexivity|]. split; [exact N|apply heur_line_right].
Qed.

Lemma short_name_cases name : (exists s, short_name name = Ok s /\ In (name, s) names) \/
  short_name name = Throw KeyErrorPy /\ forall s, ~ In (name, s) names.
Proof.
  unfold short_name. match goal with |- context [find ?f ?l] => destruct (find f l) as [(n, s)|] eqn:E end.
  - apply find_some in E as (I & E). cbn [fst] in E. apply String.eqb_eq in E. subst n. left. exists s. split; [reflexivity|].
    unfold names. cbn [In] in *. intuition congruence.
  - right. split; [reflexivity|]. intros s I. pose proof (find_none _ _ E) as N.
    assert (X : String.eqb (fst (name, s)) name = false); [|cbn [fst] in X; rewrite String.eqb_refl in X; discriminate].
    apply N. unfold names in I. cbn [In] in *. intuition congruence.
Qed.

Lemma lines_unknown d e only rows j k : In j rows -> heur_kept d only j -> heur_group_of d e j = Some k ->
  (forall s, ~ In (h_algorithm (j_heur j), s) names) -> heuristics_lines d e only rows = Throw KeyErrorPy.
Proof.
  intros I K G N. destruct (lines_groups d e only rows) as (sub & gs & -> & SK & (_ & _ & GO)).
  destruct (GO j k) as (k' & l & J & -> & _); [apply (selected_In _ _ _ SK); auto|exact G|].
  clear GO SK I K. rewrite <- (group_algorithm d e j k G) in N. clear G.
  induction gs as [|(((a & b) & alg) & l') gs IH]; [destruct J|]. cbn [mapM line_of].
  destruct (short_name_cases alg) as [(s & -> & X)|(-> & _)]; [|reflexivity]. cbn [bind].
  destruct J as [J|J]; [injection J as <- <-; destruct (N s X)|]. rewrite (IH J). reflexivity.
Qed.

(** ** The columns of the heuristics and of the bounds *)

Lemma read_heur_vial_row v r :
  read_heur_row (combine (vial_columns ++ result_columns) (vial_cells v ++ result_cells v r)%list) = Ok (heur_vial_row (v, r)).
Proof.
  unfold read_heur_row, get_col. cbv [vial_columns result_columns vial_cells result_cells app combine rget String.eqb Ascii.eqb Bool.eqb].
  cbn [as_str as_int as_num as_bool as_time]. rewrite !opt_int, !opt_bool, !opt_str. cbn [bind].
  unfold heur_vial_row. destruct (Z.leb (dc_quota (fv_data v)) (r_prize (st_result r))); reflexivity.
Qed.

Lemma read_heur_table F vials : mapM read_heur_row (f_rows (heuristics_table F vials)) = Ok (map heur_vial_row (with_result F vials)).
Proof.
  unfold heuristics_table. cbn [f_rows]. induction (with_result F vials) as [|(v & r) l IH]; [reflexivity|].
  cbn [map mapM]. rewrite read_heur_vial_row. cbn [bind]. rewrite IH. reflexivity.
Qed.

Lemma read_exact_vial_row v r s :
  read_exact_row (combine (vial_columns ++ result_columns ++ stats_columns) (vial_cells v ++ result_cells v r ++ stats_cells s)%list) =
  Ok (exact_vial_row (v, r, s)).
Proof.
  unfold read_exact_row, get_col. cbv [vial_columns result_columns stats_columns vial_cells result_cells stats_cells app combine rget String.eqb Ascii.eqb Bool.eqb].
  cbn [as_str as_int as_num as_bool as_time]. rewrite !opt_int, !opt_bool, !opt_str. reflexivity.
Qed.

Lemma read_exact_table F vials : mapM read_exact_row (f_rows (branch_cut_table F vials)) = Ok (map exact_vial_row (with_stats F vials)).
Proof.
  unfold branch_cut_table. cbn [f_rows]. induction (with_stats F vials) as [|((v & r) & s) l IH]; [reflexivity|].
  cbn [map mapM]. rewrite read_exact_vial_row. cbn [bind]. rewrite IH. reflexivity.
Qed.

(** ** Columns *)

(** Reading a field of type [t] succeeds exactly for the values of that type. *)
Definition reads {A} (f : cell -> option A) (t : field_type) : Prop := forall x, has_type t x <-> exists a, f x = Some a.

Lemma reads_str : reads as_str TStr.
Proof. intros x. split; [intros (s & ->); cbn; eauto|]. destruct x; intros (a & E); try discriminate E. cbn. eauto. Qed.
Lemma reads_int : reads as_int TInt.
Proof. intros x. split; [intros (s & ->); cbn; eauto|]. destruct x; intros (a & E); try discriminate E. cbn. eauto. Qed.
Lemma reads_num : reads as_num TNum.
Proof. intros x. split; [intros (s & ->); cbn; eauto|]. destruct x; intros (a & E); try discriminate E. cbn. eauto. Qed.
Lemma reads_bool : reads as_bool TBool.
Proof. intros x. split; [intros (s & ->); cbn; eauto|]. destruct x; intros (a & E); try discriminate E. cbn. eauto. Qed.
Lemma reads_time : reads as_time TTime.
Proof. intros x. split; [intros (s & ->); cbn; eauto|]. destruct x; intros (a & E); try discriminate E. cbn. eauto. Qed.
Lemma reads_opt {A} (f : cell -> option A) t : reads f t -> reads (as_opt f) (TMaybe t).
Proof.
  intros R x. cbn [has_type]. split.
  - intros [-> | [-> | H]]; [cbn; eauto|cbn; eauto|]. apply R in H as (a & E).
    destruct x; cbn; try rewrite E; eauto.
  - destruct x; cbn; auto; intros (a & E); right; right; apply R;
      match goal with H : match ?y with _ => _ end = _ |- _ => destruct y eqn:Y; [eauto|discriminate H] end.
Qed.

Lemma get_cases {A} (f : cell -> option A) t r name : reads f t ->
  (exists x a, rget r name = Some x /\ has_type t x /\ get_col f r name = Ok a) \/
  (rget r name = None /\ get_col f r name = Throw KeyErrorPy) \/
  (exists x, rget r name = Some x /\ ~ has_type t x /\ get_col f r name = Throw TypeErrorPy).
Proof.
  intros R. unfold get_col. destruct (rget r name) as [x|]; [|auto].
  destruct (f x) as [a|] eqn:E; [left|right; right]; exists x.
  - exists a. split; [reflexivity|]. split; [apply R; eauto|reflexivity].
  - split; [reflexivity|]. split; [|reflexivity]. intros H. apply R in H as (a & X). congruence.
Qed.

(** The first column that is missing or has another type decides. *)
Definition first_bad (r : row) (cols : list (string * field_type)) (out : option exn) : Prop :=
  match out with
  | None => forall c, In c cols -> col_ok r c
  | Some e => exists l1 c l2, cols = (l1 ++ c :: l2)%list /\ (forall c', In c' l1 -> col_ok r c') /\
      (e = KeyErrorPy /\ col_missing r c \/ e = TypeErrorPy /\ col_wrong r c)
  end.

Lemma first_bad_step {A B} (f : cell -> option A) t r name cols (k : A -> res B) : reads f t ->
  (forall a, (exists b, k a = Ok b /\ first_bad r cols None) \/ exists e, k a = Throw e /\ first_bad r cols (Some e)) ->
  (exists b, bind (get_col f r name) k = Ok b /\ first_bad r ((name, t) :: cols) None) \/
  exists e, bind (get_col f r name) k = Throw e /\ first_bad r ((name, t) :: cols) (Some e).
Proof.
  intros R K. destruct (get_cases f t r name R) as [(x & a & E & H & ->)|[(E & ->)|(x & E & H & ->)]].
  - assert (C : col_ok r (name, t)) by (exists x; auto). cbn [bind]. destruct (K a) as [(b & -> & F)|(e & -> & F)].
    + left. exists b. split; [reflexivity|]. intros c [<-|I]; auto.
    + right. exists e. split; [reflexivity|]. destruct F as (l1 & c & l2 & -> & G & X).
      exists ((name, t) :: l1), c, l2. split; [reflexivity|]. split; [intros c' [<-|I]; auto|exact X].
  - right. exists KeyErrorPy. split; [reflexivity|]. exists [], (name, t), cols. split; [reflexivity|]. split; [intros c' []|left; auto].
  - right. exists TypeErrorPy. split; [reflexivity|]. exists [], (name, t), cols. split; [reflexivity|]. split; [intros c' []|right].
    split; [reflexivity|]. exists x. auto.
Qed.

Lemma read_row_cases r : (exists t, read_row r = Ok t /\ first_bad r columns None) \/
  exists e, read_row r = Throw e /\ first_bad r columns (Some e).
Proof.
  unfold read_row, columns.
  do 20 (apply first_bad_step;
    [auto using reads_str, reads_int, reads_num, reads_bool, reads_time, @reads_opt|intros ?]).
  left. eexists. split; [reflexivity|]. intros c [].
Qed.

Lemma read_row_ok r : (exists t, read_row r = Ok t) <-> forall c, In c columns -> col_ok r c.
Proof.
  destruct (read_row_cases r) as [(t & E & F)|(e & E & F)]; rewrite E.
  - split; [intros _; exact F|eauto].
  - split; [intros (t & X); discriminate X|]. intros H. destruct F as (l1 & c & l2 & EC & _ & X).
    destruct (H c) as (x & G & T); [rewrite EC; apply in_or_app; cbn; auto|].
    destruct X as [(_ & M)|(_ & (y & M & W))]; unfold col_missing in *; congruence.
Qed.

Lemma read_row_missing r c : In c columns -> col_missing r c -> (forall c', In c' columns -> col_missing r c' \/ col_ok r c') ->
  read_row r = Throw KeyErrorPy.
Proof.
  intros I M H. destruct (read_row_cases r) as [(t & E & F)|(e & E & F)].
  - destruct (F c I) as (x & G & _). unfold col_missing in M. congruence.
  - rewrite E. destruct F as (l1 & c' & l2 & EC & _ & [(-> & _)|(_ & (y & W1 & W2))]); [reflexivity|exfalso].
    destruct (H c') as [X|(x & X & T)]; [rewrite EC; apply in_or_app; cbn; auto| |]; unfold col_missing in *; congruence.
Qed.

Lemma read_row_wrong r c : In c columns -> col_wrong r c -> (forall c', In c' columns -> ~ col_missing r c') ->
  read_row r = Throw TypeErrorPy.
Proof.
  intros I (x & X & W) H. destruct (read_row_cases r) as [(t & E & F)|(e & E & F)].
  - destruct (F c I) as (y & G & T). congruence.
  - rewrite E. destruct F as (l1 & c' & l2 & EC & _ & [(_ & M)|(-> & _)]); [exfalso|reflexivity].
    apply (H c'); [rewrite EC; apply in_or_app; cbn; auto|exact M].
Qed.

(** The objective of a row of heuristics. *)
Lemma objective_read r x r' c n : read_heur_row r = Ok x -> (forall name, name <> "objective" -> rget r' name = rget r name) ->
  rget r' "objective" = Some c -> as_cost c = Some n ->
  read_heur_row r' = Ok (mkHeur (h_dataset x) (h_graph x) (h_quota x) (h_root x) (h_generation x) (h_kappa x) (h_cost_function x) (h_alpha x)
    (h_algorithm x) (h_depth x) (h_step x) (h_collapse x) n (h_feasible x) (h_duration x)).
Proof.
  intros E S O N. unfold read_heur_row in *. unfold get_col in *. rewrite O, N. rewrite !S by discriminate.
  do 12 (apply bind_ok in E; destruct E as (? & -> & E); cbn [bind]). apply bind_ok in E. destruct E as (? & _ & E).
  do 2 (apply bind_ok in E; destruct E as (? & -> & E); cbn [bind]). injection E as <-. reflexivity.
Qed.
