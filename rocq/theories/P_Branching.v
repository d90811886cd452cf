(** * P_Branching: proofs about branching strategies *)
From Verif Require Import Base P_Base M_Branching Spec_Branching.
Open Scope list_scope.
Open Scope Z_scope.

Lemma foldM_indices {A} (body : list A -> nat -> res (list A)) (f : A -> A) :
  (forall l i a, nth_error l i = Some a -> body l i = Ok (upd l i (f a))) ->
  forall l, foldM body (seq 0 (List.length l)) l = Ok (map f l).
Proof.
  intros Hb l.
  assert (G : forall done l, foldM body (seq (List.length done) (List.length l)) (done ++ l)
                             = Ok (done ++ map f l)).
  { clear l. intros done l. revert done. induction l as [|a l IH]; intro done.
    - reflexivity.
    - cbn [List.length seq foldM map].
      rewrite (Hb _ _ a). 2:{ rewrite nth_error_app2 by lia. now rewrite Nat.sub_diag. }
      cbn [bind].
      replace (upd (done ++ a :: l) (List.length done) (f a)) with ((done ++ [f a]) ++ l).
      2:{ clear. induction done as [|d done IH]; cbn; [reflexivity|]. now rewrite IH. }
      specialize (IH (done ++ [f a])). rewrite app_length in IH. cbn in IH.
      rewrite Nat.add_1_r in IH. rewrite IH. now rewrite <- app_assoc. }
  apply (G []).
Qed.

Lemma upd_id {A} (l : list A) i a : nth_error l i = Some a -> upd l i a = l.
Proof.
  revert i. induction l as [|x l IH]; intros [|i] H; cbn in *; try discriminate.
  - now inversion H.
  - now rewrite IH.
Qed.

Lemma set_priority_eq l i r p : nth_error l i = Some r ->
  set_priority l i p = Ok (upd l i (mkRule (r_name r) p (r_maxdepth r))).
Proof.
  intro H. unfold set_priority. rewrite (vget_some _ _ _ H). cbn [bind]. apply vset_ok.
  apply nth_error_Some. congruence.
Qed.

(** What the two loops do to one rule. *)
Definition relps_rule (r : rule) : rule :=
  mkRule (r_name r) (if String.eqb (r_name r) RELPSCOST then 100000 else -10000) (r_maxdepth r).
Definition strong_rule (r : rule) : rule :=
  mkRule (r_name r)
    (if String.eqb (r_name r) FULL_STRONG then 4000
     else if String.eqb (r_name r) RELPSCOST then 3000
     else if String.eqb (r_name r) MOST_INFEASIBLE then 1000
     else if 3000 <=? r_priority r then 2500 else r_priority r) (r_maxdepth r).

Lemma set_relpscost_eq l : set_relpscost_strategy l = Ok (map relps_rule l).
Proof.
  apply foldM_indices. intros s i r H. rewrite (vget_some _ _ _ H). cbn [bind].
  unfold relps_rule. destruct (String.eqb (r_name r) RELPSCOST); now apply set_priority_eq.
Qed.

Lemma set_strong_eq l : set_strong_strategy l = Ok (map strong_rule l).
Proof.
  apply foldM_indices. intros s i r H. rewrite (vget_some _ _ _ H). cbn [bind].
  unfold strong_rule.
  destruct (String.eqb (r_name r) FULL_STRONG); [now apply set_priority_eq|].
  destruct (String.eqb (r_name r) RELPSCOST); [now apply set_priority_eq|].
  destruct (String.eqb (r_name r) MOST_INFEASIBLE); [now apply set_priority_eq|].
  destruct (3000 <=? r_priority r); [now apply set_priority_eq|].
  destruct r. cbn. now rewrite upd_id.
Qed.

Lemma same_rules_map f l : (forall r, r_name (f r) = r_name r /\ r_maxdepth (f r) = r_maxdepth r) ->
  same_rules l (map f l).
Proof. intro H. induction l; cbn; constructor; auto. Qed.

Lemma relps_same l : same_rules l (map relps_rule l).
Proof. now apply same_rules_map. Qed.
Lemma strong_same l : same_rules l (map strong_rule l).
Proof. now apply same_rules_map. Qed.

Lemma relps_first l r : In r l -> r_name r = RELPSCOST -> forall depth, usable depth r ->
  exists r', r_name r' = RELPSCOST /\ first_choice (map relps_rule l) depth r'.
Proof.
  intros Hin Hn d Hu. exists (relps_rule r). split; [exact Hn|]. split; [now apply in_map|]. split; [exact Hu|].
  intros q Hq _ Hne. apply in_map_iff in Hq as [q0 [<- Hq0]]. cbn in *.
  rewrite Hn in *. rewrite String.eqb_refl. apply String.eqb_neq in Hne. rewrite Hne. lia.
Qed.

Lemma strong_order l r r' : In r (map strong_rule l) -> In r' (map strong_rule l) ->
  r_name r <> r_name r' ->
  (r_name r = FULL_STRONG \/ (r_name r = RELPSCOST /\ r_name r' <> FULL_STRONG)) ->
  r_priority r' < r_priority r.
Proof.
  intros H H' Hne Hc. apply in_map_iff in H as [q [<- _]]. apply in_map_iff in H' as [q' [<- _]]. cbn in *.
  destruct (String.eqb_spec (r_name q) FULL_STRONG) as [E|E].
  - destruct (String.eqb_spec (r_name q') FULL_STRONG); [congruence|].
    repeat match goal with |- context [if ?b then _ else _] => destruct b eqn:? end; lia.
  - destruct Hc as [Hc|[Hc Hc']]; [contradiction|].
    destruct (String.eqb_spec (r_name q') FULL_STRONG); [contradiction|].
    destruct (String.eqb_spec (r_name q) RELPSCOST); [|contradiction].
    destruct (String.eqb_spec (r_name q') RELPSCOST); [congruence|].
    repeat match goal with |- context [if ?b then _ else _] => destruct b eqn:? end; lia.
Qed.

Lemma find_rule_spec l name :
  match find_rule l name with
  | Some i => exists r, nth_error l i = Some r /\ r_name r = name
  | None => forall r, In r l -> r_name r <> name
  end.
Proof.
  induction l as [|a l IH]; cbn; [tauto|].
  destruct (String.eqb_spec (r_name a) name) as [E|E]; [exists a; auto|].
  destruct (find_rule l name) as [i|]; cbn; [exact IH|]. intros r [->|H]; auto.
Qed.

(** The rules after the tree top strategy. *)
Definition top_rule (d : Z) (r : rule) : rule :=
  if String.eqb (r_name r) FULL_STRONG then mkRule (r_name r) (r_priority r) d else r.

Lemma names_strong l : map r_name (map strong_rule l) = map r_name l.
Proof. rewrite map_map. now apply map_ext. Qed.

Lemma upd_top d l i r : NoDup (map r_name l) -> nth_error l i = Some r -> r_name r = FULL_STRONG ->
  upd l i (mkRule (r_name r) (r_priority r) d) = map (top_rule d) l.
Proof.
  revert i. induction l as [|a l IH]; intros [|i] Hnd Hi Hn; cbn in *; try discriminate.
  - inversion Hi; subst. unfold top_rule at 1. rewrite Hn, String.eqb_refl. f_equal.
    inversion Hnd; subst. clear - H1 Hn. symmetry. erewrite map_ext_in; [apply map_id|].
    intros b Hb. unfold top_rule. destruct (String.eqb_spec (r_name b) FULL_STRONG); [|reflexivity].
    exfalso. apply H1. rewrite Hn, <- e. now apply in_map.
  - inversion Hnd; subst. rewrite (IH i); auto. f_equal. unfold top_rule.
    destruct (String.eqb_spec (r_name a) FULL_STRONG); [|reflexivity].
    exfalso. apply H1. rewrite e, <- Hn. apply in_map. eapply nth_error_In; eauto.
Qed.

Lemma set_top_eq l d : NoDup (map r_name l) -> In FULL_STRONG (map r_name l) ->
  set_strong_at_tree_top l d = Ok (map (top_rule d) (map strong_rule l)).
Proof.
  intros Hnd Hin. unfold set_strong_at_tree_top. rewrite set_strong_eq. cbn [bind].
  pose proof (find_rule_spec (map strong_rule l) FULL_STRONG) as F.
  destruct (find_rule (map strong_rule l) FULL_STRONG) as [i|].
  - destruct F as [r [Hi Hn]]. unfold set_maxdepth. rewrite (vget_some _ _ _ Hi). cbn [bind].
    rewrite vset_ok by (apply nth_error_Some; congruence). f_equal.
    apply upd_top; auto. now rewrite names_strong.
  - exfalso. rewrite <- (names_strong l) in Hin. apply in_map_iff in Hin as [r [Hr Hi]]. exact (F r Hi Hr).
Qed.

Lemma set_top_missing l d : ~ In FULL_STRONG (map r_name l) ->
  set_strong_at_tree_top l d = UB NullDeref.
Proof.
  intros Hin. unfold set_strong_at_tree_top. rewrite set_strong_eq. cbn [bind].
  pose proof (find_rule_spec (map strong_rule l) FULL_STRONG) as F.
  destruct (find_rule (map strong_rule l) FULL_STRONG) as [i|]; [|reflexivity].
  destruct F as [r [Hi Hn]]. exfalso. apply Hin. rewrite <- (names_strong l), <- Hn. apply in_map.
  eapply nth_error_In; eauto.
Qed.

Lemma top_depth l d : Forall2 (fun r r' => r_name r' = r_name r /\
    r_maxdepth r' = if String.eqb (r_name r) FULL_STRONG then d else r_maxdepth r)
  l (map (top_rule d) (map strong_rule l)).
Proof.
  induction l as [|a l IH]; cbn; constructor; auto.
  unfold top_rule. cbn. destruct (String.eqb (r_name a) FULL_STRONG); cbn; auto.
Qed.

Lemma top_depth_spec l d : Forall2 (fun r r' => r_name r' = r_name r /\
     (r_name r = FULL_STRONG -> r_maxdepth r' = d) /\
     (r_name r <> FULL_STRONG -> r_maxdepth r' = r_maxdepth r)) l (map (top_rule d) (map strong_rule l)).
Proof.
  induction (top_depth l d) as [|a b l1 l2 [H1 H2] _ IH]; constructor; auto. split; [exact H1|].
  destruct (String.eqb_spec (r_name a) FULL_STRONG); split; intros; congruence.
Qed.

Lemma top_in l d r : In r (map (top_rule d) (map strong_rule l)) ->
  exists q, In q (map strong_rule l) /\ r_name r = r_name q /\ r_priority r = r_priority q /\
    r_maxdepth r = if String.eqb (r_name q) FULL_STRONG then d else r_maxdepth q.
Proof.
  intro H. apply in_map_iff in H as [q [<- Hq]]. exists q. unfold top_rule.
  destruct (String.eqb (r_name q) FULL_STRONG); auto.
Qed.

Lemma top_order l d r r' : In r (map (top_rule d) (map strong_rule l)) ->
  In r' (map (top_rule d) (map strong_rule l)) -> r_name r <> r_name r' ->
  (r_name r = FULL_STRONG \/ (r_name r = RELPSCOST /\ r_name r' <> FULL_STRONG)) ->
  r_priority r' < r_priority r.
Proof.
  intros H H' Hne Hc. apply top_in in H as (q & Hq & E1 & E2 & _). apply top_in in H' as (q' & Hq' & E1' & E2' & _).
  rewrite E2, E2'. rewrite E1, E1' in *. now apply (strong_order l).
Qed.

Lemma top_first l d r depth : In r l -> r_name r = FULL_STRONG -> (d = -1 \/ depth <= d) ->
  exists r', r_name r' = FULL_STRONG /\ first_choice (map (top_rule d) (map strong_rule l)) depth r'.
Proof.
  intros Hin Hn Hd. exists (top_rule d (strong_rule r)).
  assert (E : r_name (top_rule d (strong_rule r)) = FULL_STRONG).
  { unfold top_rule. cbn. rewrite Hn, String.eqb_refl. reflexivity. }
  split; [exact E|]. split; [now apply in_map, in_map|]. split.
  - unfold usable, top_rule. cbn. rewrite Hn, String.eqb_refl. exact Hd.
  - intros r' Hr' _ Hne. apply (top_order l d); auto using in_map.
Qed.

Lemma top_second l d r depth : In r l -> r_name r = RELPSCOST -> usable depth r -> d <> -1 -> d < depth ->
  exists r', r_name r' = RELPSCOST /\ first_choice (map (top_rule d) (map strong_rule l)) depth r'.
Proof.
  intros Hin Hn Hu Hd1 Hd. exists (top_rule d (strong_rule r)).
  assert (E : top_rule d (strong_rule r) = strong_rule r).
  { unfold top_rule. cbn. rewrite Hn. reflexivity. }
  split; [rewrite E; exact Hn|]. split; [now apply in_map, in_map|]. split.
  - rewrite E. exact Hu.
  - intros r' Hr' Hu' Hne. apply (top_order l d); auto using in_map.
    right. rewrite E. split; [exact Hn|]. intro Ef. apply top_in in Hr' as (q & Hq & E1 & E2 & E3).
    rewrite <- E1, Ef, String.eqb_refl in E3. unfold usable in Hu'. lia.
Qed.
