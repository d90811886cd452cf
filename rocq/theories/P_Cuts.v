(** * P_Cuts: subtour elimination and cycle cover rows *)
From Coq Require Import Permutation.
From Verif Require Import Base Graph Spec Spec_Cycle M_Walk M_Graph M_Solution M_ILP M_Subtour M_CycleCover Spec_ILP.
From Verif Require Import P_Base P_Walk P_Cycle P_Extension P_ILP P_Model P_Lookup.
Open Scope nat_scope.

(** ** values of rows *)
Lemma combine_app_eq {A B} (a1 a2 : list A) (b1 b2 : list B) : length a1 = length b1 ->
  combine (a1 ++ a2) (b1 ++ b2) = combine a1 b1 ++ combine a2 b2.
Proof.
  revert b1. induction a1 as [|x a1 IH]; intros [|y b1] H; cbn in *; try discriminate; auto.
  now rewrite IH by lia.
Qed.

Lemma lin_value_app x a b : lin_value x (a ++ b) = (lin_value x a + lin_value x b)%Z.
Proof. induction a as [|[v c] a IH]; cbn [lin_value app]; lia. Qed.

Lemma lin_value_const x k l : lin_value x (combine l (repeat k (length l))) = (k * zsum x l)%Z.
Proof. induction l as [|v l IH]; cbn [combine repeat length lin_value zsum]; lia. Qed.

(** ** counting steps inside a set *)
Definition inside (g : graph) (inS : nat -> bool) (e : nat) : bool :=
  match nth_error (ge g) e with Some (a, b) => inS a && inS b | None => false end.

Lemma inside_joins g inS e u v : joins g e u v -> inside g inS e = inS u && inS v.
Proof. unfold inside, joins. intros [-> | ->]; auto. apply andb_comm. Qed.

Lemma steps_inside g inS t es : trail g t es ->
  length (filter (inside g inS) es) <= length (filter inS (removelast t)).
Proof.
  induction 1 as [u|u v w e es Hj Ht IH]; [cbn; lia|].
  change (removelast (u :: v :: w)) with (u :: removelast (v :: w)).
  cbn [filter]. rewrite (inside_joins g inS e u v Hj).
  destruct (inS u), (inS v); cbn [andb length]; lia.
Qed.

Lemma steps_crossing g inS t es : trail g t es -> forall a u v b,
  t = a ++ u :: v :: b -> inS u = true -> inS v = false ->
  length (filter (inside g inS) es) < length (filter inS (removelast t)).
Proof.
  induction 1 as [x|x y w e es Hj Ht IH]; intros a u v b E Hu Hv.
  - destruct a as [|? [|? ?]]; discriminate E.
  - change (removelast (x :: y :: w)) with (x :: removelast (y :: w)).
    cbn [filter]. rewrite (inside_joins g inS e x y Hj).
    destruct a as [|x' a].
    + inversion E; subst. rewrite Hu, Hv. cbn [andb length].
      pose proof (steps_inside g inS _ _ Ht). lia.
    + injection E as E1 E2. specialize (IH a u v b E2 Hu Hv).
      destruct (inS x), (inS y); cbn [andb length]; lia.
Qed.

Lemma crossing_exists (inS : nat -> bool) l : forall u q, inS u = true -> In q l -> inS q = false ->
  exists a x y b, u :: l = a ++ x :: y :: b /\ inS x = true /\ inS y = false.
Proof.
  induction l as [|v l IH]; intros u q Hu Hq Hf; [destruct Hq|].
  destruct (inS v) eqn:Ev.
  - destruct Hq as [->|Hq]; [congruence|].
    destruct (IH v q Ev Hq Hf) as (a & x & y & b & E & H). exists (u :: a), x, y, b.
    rewrite E. auto.
  - exists [], u, v, l. auto.
Qed.

Lemma closed_crossing (inS : nat -> bool) r vs p q : let t := r :: vs ++ [r] in
  In p t -> inS p = true -> In q t -> inS q = false ->
  exists a x y b, t = a ++ x :: y :: b /\ inS x = true /\ inS y = false.
Proof.
  cbn. intros Hp Hpt Hq Hqf. destruct (inS r) eqn:Er.
  - destruct Hq as [<-|Hq]; [congruence|]. apply (crossing_exists inS _ r q); auto.
  - destruct Hp as [<-|Hp]; [congruence|].
    apply in_split in Hp as (a & b & E).
    assert (Hr : In r b).
    { destruct b as [|z b] using rev_ind.
      - apply app_inj_tail in E as [_ E]. congruence.
      - rewrite app_comm_cons, app_assoc in E. apply app_inj_tail in E as [_ <-].
        apply in_or_app. right. now left. }
    destruct (crossing_exists inS b p r Hpt Hr Er) as (a' & x & y & b' & E' & H).
    exists (r :: a ++ a'), x, y, b'. split; auto.
    cbn [app]. rewrite <- app_assoc, <- E'. now rewrite E.
Qed.

(** ** the two sums at an incidence vector *)
Lemma tour_inside_count r vs S : let t := r :: vs ++ [r] in NoDup (r :: vs) -> NoDup S ->
  length (filter (fun v => memb v S) (removelast t)) = length (filter (fun v => memb v t) S).
Proof.
  intros t Hn HS. assert (Et : removelast t = r :: vs) by (apply removelast_cons_snoc).
  rewrite Et. apply Permutation_length, NoDup_Permutation.
  - now apply NoDup_filter.
  - now apply NoDup_filter.
  - intros v. rewrite !filter_In, !memb_In. unfold t. cbn [In]. rewrite in_app_iff. cbn [In]. tauto.
Qed.

Lemma zsum_count (x : nat -> Z) (D : Z) (P : nat -> bool) l :
  (forall e, In e l -> x e = if P e then D else 0%Z) ->
  zsum x l = (D * Z.of_nat (length (filter P l)))%Z.
Proof.
  induction l as [|e l IH]; intros H; [cbn; lia|]. cbn [zsum filter].
  rewrite IH by (intros; apply H; now right). rewrite (H e (or_introl eq_refl)).
  destruct (P e); cbn [length]; lia.
Qed.

Lemma incidence_edges g r t s S es : tour_from g r t -> incidence g t s -> NoDup S ->
  NoDup es -> (forall e, In e es -> exists u v, In u S /\ In v S /\ u <> v /\ joins g e u v) ->
  exists k, zsum (s_num s) es = (s_den s * Z.of_nat k)%Z /\
    k <= length (filter (fun v => memb v t) S) /\
    (forall p q, In p t -> In p S -> In q t -> ~ In q S ->
       k < length (filter (fun v => memb v t) S)).
Proof.
  intros Ht Hi HS Hn He.
  destruct Hi as [[HD Hbin] (et & Htr & Hval)].
  exists (length (filter (fun e => memb e et) es)). split.
  - apply zsum_count. intros e Hin. destruct (He e Hin) as (u & v & _ & _ & Hne & Hj).
    pose proof (joins_lt _ _ _ _ Hj) as Hlt.
    destruct (memb e et) eqn:Em.
    + apply (Hval e Hlt). left. now apply memb_In.
    + destruct (Hbin e Hlt) as [H|H]; auto. exfalso. apply memb_not_In in Em.
      apply (Hval e Hlt) in H as [H|(w & _ & Hw)]; [contradiction|].
      destruct (joins_fun g e u v w w Hj Hw) as [[-> ->]|[-> ->]]; congruence.
  - destruct Ht as (vs & Et & Hnd & Hl & _).
    assert (Hle : length (filter (fun e => memb e et) es) <=
      length (filter (inside g (fun v => memb v S)) et)).
    { apply NoDup_incl_length; [now apply NoDup_filter|]. intros e Hin.
      apply filter_In in Hin as [H1 H2]. apply memb_In in H2. apply filter_In. split; auto.
      destruct (He e H1) as (u & v & Hu & Hv & _ & Hj).
      rewrite (inside_joins _ _ e u v Hj). apply andb_true_iff. split; now apply memb_In. }
    assert (Hc : length (filter (fun v => memb v S) (removelast t)) =
      length (filter (fun v => memb v t) S)).
    { rewrite Et. apply tour_inside_count; auto. }
    rewrite <- Hc. split.
    + etransitivity; [exact Hle|]. now apply steps_inside.
    + intros p q Hp HpS Hq HqS.
      destruct (closed_crossing (fun v => memb v S) r vs p q) as (a & x & y & b & E & Hx & Hy).
      { rewrite <- Et. auto. } { now apply memb_In. } { rewrite <- Et. auto. } { now apply memb_not_In. }
      rewrite <- Et in E.
      pose proof (steps_crossing g (fun v => memb v S) t et Htr a x y b E Hx Hy). lia.
Qed.

Lemma incidence_loop g t s v l : incidence g t s -> joins g l v v ->
  s_num s l = if memb v t then s_den s else 0%Z.
Proof.
  intros [[HD Hbin] (et & Htr & Hval)] Hj. pose proof (joins_lt _ _ _ _ Hj) as Hlt.
  destruct (memb v t) eqn:Em.
  - apply memb_In in Em. apply (Hval l Hlt). right. exists v. auto.
  - apply memb_not_In in Em. destruct (Hbin l Hlt) as [H|H]; auto. exfalso.
    apply (Hval l Hlt) in H as [H|(w & Hw & Hj')].
    + destruct (trail_In_split g t et l Htr H) as (a & x & y & b & E & Hxy).
      apply Em. rewrite E. destruct (joins_fun g l v v x y Hj Hxy) as [[-> _]|[-> _]];
        apply in_elt || (apply in_or_app; right; right; now left).
    + destruct (joins_fun g l v v w w Hj Hj') as [[-> _]|[-> _]]; contradiction.
Qed.

Lemma incidence_loops g t s vs ls : incidence g t s ->
  Forall2 (fun v l => step_edge g v v l) vs ls ->
  zsum (s_num s) ls = (s_den s * Z.of_nat (length (filter (fun v => memb v t) vs)))%Z.
Proof.
  intros Hi. induction 1 as [|v l vs ls Hs _ IH]; [cbn; lia|].
  cbn [zsum filter]. rewrite IH, (incidence_loop g t s v l Hi (proj1 Hs)).
  destruct (memb v t); cbn [length]; lia.
Qed.

(** ** the terms of a subtour elimination row *)
Lemma loops_valid g vs ls : Forall2 (fun v l => step_edge g v v l) vs ls ->
  Forall (fun e => e < length (ge g)) ls.
Proof. induction 1 as [|v l vs ls Hs _ IH]; constructor; auto. eapply joins_lt. apply Hs. Qed.

Lemma induced_valid g S es :
  (forall e, In e es <-> exists u v, In u S /\ In v S /\ u <> v /\ step_edge g u v e) ->
  Forall (fun e => e < length (ge g)) es.
Proof.
  intros H. apply Forall_forall. intros e He. apply H in He as (u & v & _ & _ & _ & [Hj _]).
  eapply joins_lt; eauto.
Qed.

Lemma fill_ok (pos neg : list nat) :
  fill_positive_negative_vars pos neg (length pos + length neg) (length pos + length neg) =
  Ok (pos ++ neg, repeat 1%Z (length pos) ++ repeat (-1)%Z (length neg)).
Proof.
  unfold fill_positive_negative_vars.
  destruct (Nat.ltb_spec (length pos + length neg) (length pos)); [lia|].
  replace (length pos + length neg - length pos) with (length neg) by lia.
  destruct (Nat.ltb_spec (length neg) (length neg)); [lia|]. now rewrite firstn_all.
Qed.

Definition induced (g : graph) (S es : list nat) : Prop :=
  NoDup es /\ forall e, In e es <-> exists u v, In u S /\ In v S /\ u <> v /\ step_edge g u v e.

Lemma filter_all {A} (P : A -> bool) l : (forall a, In a l -> P a = true) -> filter P l = l.
Proof.
  induction l as [|a l IH]; intros H; [reflexivity|]. cbn [filter].
  rewrite (H a (or_introl eq_refl)), IH; auto. intros; apply H; now right.
Qed.

Lemma sec_terms_out g S root target : Forall (fun v => v < gn g) S -> NoDup S ->
  (forall v, In v S -> is_edge g v v) -> ~ In root S -> In target S ->
  exists es ls, sec_terms g (var_map g) S root target =
      Ok (es ++ ls, repeat 1%Z (length es) ++ repeat (-1)%Z (length ls)) /\
    induced g S es /\
    Forall2 (fun v l => step_edge g v v l) (filter (fun v => negb (Nat.eqb v target)) S) ls.
Proof.
  intros Hf Hn Hl Hr Ht. unfold sec_terms.
  rewrite (proj2 (memb_not_In root S) Hr), (proj2 (memb_In target S) Ht). cbn [orb andb negb].
  destruct (induced_ok g S Hf Hn) as (es & Ee & He). rewrite Ee. cbn [bind].
  rewrite edge_variables_ok by (eapply induced_valid; apply He). cbn [bind].
  rewrite app_nil_r.
  destruct (self_loops_ok g (filter (fun v => negb (Nat.eqb v target)) S)) as (ls & El & Hls).
  { apply Forall_forall. intros v Hv. apply filter_In in Hv as [Hv _].
    rewrite Forall_forall in Hf. auto. }
  { intros v Hv. apply filter_In in Hv as [Hv _]. auto. }
  rewrite El. cbn [bind]. rewrite edge_variables_ok by (eapply loops_valid; eauto). cbn [bind].
  rewrite fill_ok. cbn [bind]. exists es, ls. split; auto.
Qed.

Lemma repeat_snoc {A} (a : A) n : repeat a (S n) = repeat a n ++ [a].
Proof. induction n as [|n IH]; [reflexivity|]. cbn [repeat app] in *. now rewrite IH. Qed.

Lemma sec_terms_in g S root target : Forall (fun v => v < gn g) S -> NoDup S ->
  target < gn g -> is_edge g target target ->
  (forall v, In v S -> is_edge g v v) -> In root S -> ~ In target S ->
  exists es ls lt, sec_terms g (var_map g) S root target =
      Ok (es ++ ls ++ [lt],
          repeat 1%Z (length es) ++ repeat (-1)%Z (length ls) ++ [1%Z]) /\
    induced g S es /\
    Forall2 (fun v l => step_edge g v v l) S ls /\ step_edge g target target lt.
Proof.
  intros Hf Hn Htg Htl Hl Hr Ht. unfold sec_terms.
  rewrite (proj2 (memb_In root S) Hr), (proj2 (memb_not_In target S) Ht). cbn [orb andb negb].
  destruct (induced_ok g S Hf Hn) as (es & Ee & He). rewrite Ee. cbn [bind].
  rewrite edge_variables_ok by (eapply induced_valid; apply He). cbn [bind].
  rewrite (filter_all (fun _ => true)) by auto.
  destruct (self_loops_ok g (S ++ [target])) as (ls' & El & Hls).
  { apply Forall_app. split; auto. }
  { intros v Hv. apply in_app_or in Hv as [Hv|[<-|[]]]; auto. }
  rewrite El. cbn [bind]. rewrite edge_variables_ok by (eapply loops_valid; eauto). cbn [bind].
  apply Forall2_app_inv_l in Hls as (ls & lt' & Hls & Hlt & ->).
  inversion Hlt as [|? lt ? ? Hlt1 Hnil]; subst. inversion Hnil; subst.
  rewrite fill_ok. cbn [bind].
  replace (length (ls ++ [lt])) with (Datatypes.S (length ls)) by (rewrite app_length; cbn [length]; lia).
  rewrite repeat_snoc, app_assoc.
  set (pre := repeat 1%Z (length es) ++ repeat (-1)%Z (length ls)).
  rewrite vset_ok by (rewrite app_length; cbn [length]; lia). cbn [bind].
  assert (Eu : upd (pre ++ [(-1)%Z]) (length (pre ++ [(-1)%Z]) - 1) 1%Z = pre ++ [1%Z]).
  { replace (length (pre ++ [(-1)%Z]) - 1) with (length pre) by (rewrite app_length; cbn [length]; lia).
    generalize pre. intros l. induction l as [|a l IH]; cbn; auto. now rewrite IH. }
  rewrite Eu. unfold pre. exists es, ls, lt. rewrite <- app_assoc. split; auto.
Qed.

(** ** validity *)
Lemma filter_count_remove (P : nat -> bool) target S : NoDup S -> In target S ->
  length (filter P S) = length (filter P (filter (fun v => negb (Nat.eqb v target)) S))
                        + (if P target then 1 else 0).
Proof.
  induction S as [|a S IH]; intros Hn Hin; [destruct Hin|].
  apply NoDup_cons_iff in Hn as [Ha Hn]. cbn [filter].
  destruct (Nat.eqb_spec a target) as [->|Hne]; cbn [negb].
  - rewrite (filter_all (fun v => negb (Nat.eqb v target))).
    + destruct (P target); cbn [length]; lia.
    + intros v Hv. apply negb_true_iff, Nat.eqb_neq. intros ->. contradiction.
  - destruct Hin as [->|Hin]; [congruence|]. specialize (IH Hn Hin). cbn [filter].
    destruct (P a); cbn [length]; lia.
Qed.

Lemma In_root r t g : tour_from g r t -> In r t.
Proof. intros (vs & -> & _). now left. Qed.

Lemma sec_out_valid g S root target es ls t s : NoDup S -> ~ In root S -> In target S ->
  induced g S es ->
  Forall2 (fun v l => step_edge g v v l) (filter (fun v => negb (Nat.eqb v target)) S) ls ->
  tour_from g root t -> incidence g t s ->
  row_sat s (mkLin (combine (es ++ ls) (repeat 1%Z (length es) ++ repeat (-1)%Z (length ls)))
                   None (Some 0%Z)).
Proof.
  intros Hn Hr Htg [He1 He2] Hls Ht Hi. split; cbn [l_lhs l_rhs l_terms]; [discriminate|].
  intros b E. inversion E; subst b.
  rewrite combine_app_eq by (now rewrite repeat_length).
  rewrite lin_value_app, !lin_value_const, (incidence_loops g t s _ ls Hi Hls).
  destruct (incidence_edges g root t s S es Ht Hi Hn He1) as (k & Hk & Hk1 & Hk2).
  { intros e He. apply He2 in He as (u & v & H1 & H2 & H3 & [H4 _]). eauto 6. }
  rewrite Hk. pose proof (filter_count_remove (fun v => memb v t) target S Hn Htg) as Hc.
  assert (HD : (0 < s_den s)%Z) by apply Hi.
  assert (Hk3 : k <= length (filter (fun v => memb v t) (filter (fun v => negb (Nat.eqb v target)) S))).
  { destruct (memb target t) eqn:Em; [|lia]. apply memb_In in Em.
    specialize (Hk2 target root Em Htg (In_root _ _ _ Ht) Hr). lia. }
  nia.
Qed.

Lemma sec_in_valid g S root target es ls lt t s : NoDup S -> In root S -> ~ In target S ->
  induced g S es -> Forall2 (fun v l => step_edge g v v l) S ls -> step_edge g target target lt ->
  tour_from g root t -> incidence g t s ->
  row_sat s (mkLin (combine (es ++ ls ++ [lt])
     (repeat 1%Z (length es) ++ repeat (-1)%Z (length ls) ++ [1%Z])) None (Some 0%Z)).
Proof.
  intros Hn Hr Htg [He1 He2] Hls Hlt Ht Hi. split; cbn [l_lhs l_rhs l_terms]; [discriminate|].
  intros b E. inversion E; subst b.
  rewrite !combine_app_eq by (now rewrite repeat_length).
  rewrite !lin_value_app, !lin_value_const, (incidence_loops g t s _ ls Hi Hls).
  cbn [combine lin_value]. rewrite (incidence_loop g t s target lt Hi (proj1 Hlt)).
  destruct (incidence_edges g root t s S es Ht Hi Hn He1) as (k & Hk & Hk1 & Hk2).
  { intros e He. apply He2 in He as (u & v & H1 & H2 & H3 & [H4 _]). eauto 6. }
  rewrite Hk. assert (HD : (0 < s_den s)%Z) by apply Hi.
  destruct (memb target t) eqn:Em; [|nia]. apply memb_In in Em.
  specialize (Hk2 root target (In_root _ _ _ Ht) Hr Em Htg). nia.
Qed.

Lemma add_row_ok lib vars coefs lhs rhs st : length coefs = length vars ->
  exists st', add_row lib vars coefs lhs rhs st = Ok st' /\
    let row := mkLin (combine vars coefs) lhs rhs in
    st' = if efficacious lib row
          then mkSepa (sp_rows st ++ [row]) (if row_infeasible lib row then Cutoff else Separated)
          else st.
Proof.
  intros H. unfold add_row. rewrite H. destruct (Nat.ltb_spec (length vars) (length vars)); [lia|].
  cbn. destruct (efficacious lib _); eexists; split; reflexivity.
Qed.

(** what adding one row does to the separation state *)
Definition adds_row (lib : scip_lib) (row : lin) (st st' : sepa) : Prop :=
  st' = if efficacious lib row
        then mkSepa (sp_rows st ++ [row]) (if row_infeasible lib row then Cutoff else Separated)
        else st.

Lemma add_sec_ok lib g S root target st : Forall (fun v => v < gn g) S -> NoDup S -> all_loops g ->
  target < gn g -> (In root S <-> ~ In target S) ->
  exists row st', add_sec lib g (var_map g) S root target st = Ok st' /\
    adds_row lib row st st' /\
    forall t s, tour_from g root t -> incidence g t s -> row_sat s row.
Proof.
  intros Hf Hn Hl Htg Hx.
  assert (Hl' : forall v, In v S -> is_edge g v v).
  { intros v Hv. apply Hl. rewrite Forall_forall in Hf. auto. }
  unfold add_sec. destruct (in_dec Nat.eq_dec target S) as [Hin|Hin].
  - assert (Hr : ~ In root S) by tauto.
    destruct (sec_terms_out g S root target Hf Hn Hl' Hr Hin) as (es & ls & E & He & Hls).
    rewrite E. cbn [bind].
    destruct (add_row_ok lib (es ++ ls) (repeat 1%Z (length es) ++ repeat (-1)%Z (length ls))
      None (Some 0%Z) st) as (st' & Es & Hs).
    { now rewrite !app_length, !repeat_length. }
    eexists. exists st'. split; [exact Es|]. split; [exact Hs|].
    intros t s Ht Hi. eapply sec_out_valid; eauto.
  - assert (Hr : In root S) by tauto.
    destruct (sec_terms_in g S root target Hf Hn Htg (Hl target Htg) Hl' Hr Hin)
      as (es & ls & lt & E & He & Hls & Hlt).
    rewrite E. cbn [bind].
    destruct (add_row_ok lib (es ++ ls ++ [lt])
      (repeat 1%Z (length es) ++ repeat (-1)%Z (length ls) ++ [1%Z]) None (Some 0%Z) st)
      as (st' & Es & Hs).
    { rewrite !app_length, !repeat_length. reflexivity. }
    eexists. exists st'. split; [exact Es|]. split; [exact Hs|].
    intros t s Ht Hi. eapply (sec_in_valid g S root target); eauto.
Qed.

Lemma add_sec_throws lib g m S root target st :
  (~ In root S -> ~ In target S -> add_sec lib g m S root target st = Throw VertexNotFoundException) /\
  (In root S -> In target S -> add_sec lib g m S root target st = Throw VertexInWrongSetException).
Proof.
  unfold add_sec, sec_terms. split; intros H1 H2.
  - apply memb_not_In in H1. apply memb_not_In in H2. rewrite H1, H2. reflexivity.
  - apply memb_In in H1. apply memb_In in H2. rewrite H1, H2. reflexivity.
Qed.

(** ** cycle cover *)
Lemma cycle_cover_terms lib g S st : Forall (fun v => v < gn g) S -> NoDup S -> S <> [] ->
  (forall v, In v S -> is_edge g v v) ->
  exists es ls st', induced g S es /\ Forall2 (fun v l => step_edge g v v l) S ls /\
    add_cycle_cover lib g (var_map g) S st = Ok st' /\
    adds_row lib (mkLin (combine (es ++ ls) (repeat 1%Z (length es) ++ repeat (-1)%Z (length ls)))
                   None (Some (-1)%Z)) st st'.
Proof.
  intros Hf Hn Hne Hl. unfold add_cycle_cover.
  destruct (induced_ok g S Hf Hn) as (es & Ee & He).
  destruct (self_loops_ok g S Hf Hl) as (ls & El & Hls).
  destruct (add_row_ok lib (es ++ ls) (repeat 1%Z (length es) ++ repeat (-1)%Z (length ls))
      None (Some (-1)%Z) st) as (st' & Es & Hs).
  { now rewrite !app_length, !repeat_length. }
  exists es, ls, st'. split; auto. split; auto. split; [|exact Hs].
  destruct S as [|v0 S]; [congruence|].
  rewrite Ee. cbn [bind]. rewrite edge_variables_ok by (eapply induced_valid; apply He). cbn [bind].
  rewrite El. cbn [bind]. rewrite edge_variables_ok by (eapply loops_valid; eauto). cbn [bind].
  rewrite fill_ok. cbn [bind]. exact Es.
Qed.

Lemma cover_valid g S root es ls t s : NoDup S -> In root S ->
  induced g S es -> Forall2 (fun v l => step_edge g v v l) S ls ->
  tour_from g root t -> incidence g t s -> (exists q, In q t /\ ~ In q S) ->
  row_sat s (mkLin (combine (es ++ ls) (repeat 1%Z (length es) ++ repeat (-1)%Z (length ls)))
                   None (Some (-1)%Z)).
Proof.
  intros Hn Hr [He1 He2] Hls Ht Hi (q & Hq & HqS). split; cbn [l_lhs l_rhs l_terms]; [discriminate|].
  intros b E. inversion E; subst b.
  rewrite combine_app_eq by (now rewrite repeat_length).
  rewrite lin_value_app, !lin_value_const, (incidence_loops g t s _ ls Hi Hls).
  destruct (incidence_edges g root t s S es Ht Hi Hn He1) as (k & Hk & _ & Hk2).
  { intros e He. apply He2 in He as (u & v & H1 & H2 & H3 & [H4 _]). eauto 6. }
  rewrite Hk. assert (HD : (0 < s_den s)%Z) by apply Hi.
  specialize (Hk2 root q (In_root _ _ _ Ht) Hr Hq HqS). nia.
Qed.

(** nonnegative prizes: a sub-collection has at most the prize *)
Lemma prize_sum_perm p l l' z : Permutation l l' -> prize_sum p l z -> prize_sum p l' z.
Proof.
  intros HP. revert z. induction HP as [|v l l' HP IH|u v l|l l' l'' H1 IH1 H2 IH2]; intros z Hz; auto.
  - apply prize_sum_cons_inv in Hz as (x & y & Hx & Hy & ->). constructor; auto.
  - apply prize_sum_cons_inv in Hz as (x & y & Hx & Hy & ->).
    apply prize_sum_cons_inv in Hy as (x' & y' & Hx' & Hy' & ->).
    replace (x + (x' + y'))%Z with (x' + (x + y'))%Z by lia. constructor; auto. constructor; auto.
Qed.

Lemma prize_sum_incl p l l' z z' : Forall (fun x => 0 <= x)%Z p -> NoDup l -> incl l l' ->
  prize_sum p l z -> prize_sum p l' z' -> (z <= z')%Z.
Proof.
  intros Hp. revert l' z z'. induction l as [|v l IH]; intros l' z z' Hn Hi Hz Hz'.
  - inversion Hz; subst. clear -Hp Hz'. induction Hz' as [|v l x z Hx Hz IH]; [lia|].
    apply nth_error_In in Hx. rewrite Forall_forall in Hp. specialize (Hp x Hx). lia.
  - apply NoDup_cons_iff in Hn as [Hv Hn].
    destruct (in_split v l' (Hi v (or_introl eq_refl))) as (a & b & ->).
    apply (prize_sum_perm p _ (v :: a ++ b)) in Hz'; [|apply Permutation_sym, Permutation_middle].
    apply prize_sum_cons_inv in Hz as (x & y & Hx & Hy & ->).
    apply prize_sum_cons_inv in Hz' as (x' & y' & Hx' & Hy' & ->).
    rewrite Hx in Hx'. inversion Hx'; subst x'.
    assert (y <= y')%Z; [|lia]. apply (IH (a ++ b) y y' Hn); auto.
    intros w Hw. specialize (Hi w (or_intror Hw)). apply in_app_or in Hi as [H|[->|H]].
    + apply in_or_app; auto. + contradiction. + apply in_or_app; auto.
Qed.

Lemma quota_outside g p quota S zS root t : Forall (fun x => 0 <= x)%Z p -> NoDup S ->
  prize_sum p S zS -> (zS < quota)%Z -> tour_from g root t -> meets_quota p quota t ->
  exists q, In q t /\ ~ In q S.
Proof.
  intros Hp Hn HS Hlt (vs & Et & Hnd & _) (z & Hz & Hq).
  destruct (existsb (fun v => negb (memb v S)) t) eqn:E.
  - apply existsb_exists in E as (q & H1 & H2). exists q. split; auto.
    now apply memb_not_In, negb_true_iff.
  - exfalso. assert (Hi : incl (removelast t) S).
    { intros v Hv. assert (In v t).
      { rewrite Et in Hv |- *. rewrite removelast_cons_snoc in Hv. cbn [In] in *.
        rewrite in_app_iff. tauto. }
      destruct (memb v S) eqn:Em; [now apply memb_In|].
      assert (Hx : existsb (fun v => negb (memb v S)) t = true).
      { apply existsb_exists. exists v. split; auto. now rewrite Em. }
      congruence. }
    assert (Hn' : NoDup (removelast t)) by (rewrite Et, removelast_cons_snoc; auto).
    pose proof (prize_sum_incl p _ _ _ _ Hp Hn' Hi Hz HS). lia.
Qed.
