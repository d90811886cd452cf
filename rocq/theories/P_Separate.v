(** * P_Separate: the support of a 0/1 point and the separation of disjoint tours *)
From Coq Require Import Permutation.
From Verif Require Import Base Graph Spec Spec_Cycle M_Walk M_Graph M_Solution M_ILP M_Subtour M_CycleCover Spec_ILP.
From Verif Require Import P_Base P_Walk P_Cycle P_Extension P_ILP P_Model P_Lookup P_Cuts P_Component.
Open Scope nat_scope.

(** ** the support graph *)
Lemma nth_filter_map {A B} (P : A -> bool) (f : A -> B) l i b :
  nth_error (map f (filter P l)) i = Some b -> exists a, In a l /\ P a = true /\ f a = b.
Proof.
  intros H. apply nth_error_In in H. apply in_map_iff in H as (a & E & H).
  apply filter_In in H as [H1 H2]. eauto.
Qed.

Lemma support_edge g s u v : is_edge (filter_positive g s) u v <->
  exists e, joins g e u v /\ is_var_positive s e = true.
Proof.
  assert (G : forall a b, In (a, b) (ge (filter_positive g s)) <->
    exists e, nth_error (ge g) e = Some (a, b) /\ is_var_positive s e = true).
  { intros a b. cbn [filter_positive ge]. rewrite in_map_iff. split.
    - intros ([e p] & E & H). apply filter_In in H as [H1 H2]. cbn [fst snd] in *. subst p.
      apply In_nth_error in H1 as [i Hi]. rewrite nth_error_combine in Hi.
      destruct (nth_error (seq 0 (length (ge g))) i) as [e'|] eqn:Es; [|discriminate].
      destruct (nth_error (ge g) i) as [p'|] eqn:Ep; [|discriminate]. inversion Hi; subst.
      pose proof (nth_error_Some_lt _ _ _ Ep).
      apply nth_error_nth with (d := 0) in Es. rewrite seq_nth in Es by auto. subst e. eauto.
    - intros (e & He & Hp). exists (e, (a, b)). split; auto. apply filter_In. split; auto.
      apply nth_error_In with e. rewrite nth_error_combine, He.
      pose proof (nth_error_Some_lt _ _ _ He).
      rewrite (nth_error_nth' _ 0) by (rewrite seq_length; auto). now rewrite seq_nth. }
  unfold is_edge, joins. split.
  - intros [i [H|H]]; apply nth_error_In in H; apply G in H as (e & H1 & H2); eauto.
  - intros (e & [H|H] & Hp).
    + assert (Hin : In (u, v) (ge (filter_positive g s))) by (apply G; eauto).
      apply In_nth_error in Hin as [i Hi]. eauto.
    + assert (Hin : In (v, u) (ge (filter_positive g s))) by (apply G; eauto).
      apply In_nth_error in Hin as [i Hi]. eauto.
Qed.

Lemma support_ok g s : graph_ok g -> graph_ok (filter_positive g s).
Proof.
  intros Hg a b H. cbn [filter_positive ge gn] in *. apply in_map_iff in H as ([e p] & E & H).
  apply filter_In in H as [H _]. apply in_combine_r in H. cbn in E. subst p. auto.
Qed.

Lemma Permutation_incl_split (a b : list nat) : NoDup a -> incl a b ->
  exists rest, Permutation b (a ++ rest).
Proof.
  revert b. induction a as [|x a IH]; intros b Hn Hi; [exists b; auto|].
  apply NoDup_cons_iff in Hn as [Hx Hn].
  destruct (in_split x b (Hi x (or_introl eq_refl))) as (l1 & l2 & ->).
  destruct (IH (l1 ++ l2) Hn) as [rest HP].
  - intros y Hy. specialize (Hi y (or_intror Hy)). apply in_app_or in Hi as [H|[->|H]].
    + apply in_or_app; auto. + contradiction. + apply in_or_app; auto.
  - exists rest. rewrite <- Permutation_middle. cbn [app]. now constructor.
Qed.

(** ** orbits of the support: walking from a vertex of degree two comes back *)
Section ORBIT.
Variable g : graph.
Hypothesis Hg : graph_ok g.
Hypothesis Hp : no_parallel g.
Variable E : list nat.
Hypothesis HnE : NoDup E.
Hypothesis HvE : Forall (fun e => e < length (ge g)) E.
Hypothesis HlE : no_loops g E.
Hypothesis Hdeg : forall v, enbrs g E v = [] \/ length (enbrs g E v) = 2.

Let N := enbrs g E.

Lemma N_sym u v : In u (N v) -> In v (N u).
Proof. unfold N. rewrite !enbrs_In. intros (e & H1 & H2). exists e. split; auto. now apply joins_sym. Qed.

Lemma N_lt u v : In u (N v) -> u < gn g /\ v < gn g.
Proof.
  unfold N. rewrite enbrs_In. intros (e & _ & Hj). apply (is_edge_range g u v Hg).
  exists e. now apply joins_sym.
Qed.

Lemma N_NoDup v : NoDup (N v).
Proof.
  unfold N, enbrs. clear Hdeg. induction E as [|e es IH]; [constructor|].
  cbn [flat_map]. apply NoDup_cons_iff in HnE as [He Hn].
  apply Forall_cons_iff in HvE as [Hv1 Hv2].
  assert (Hl' : no_loops g es) by (intros f a b Hf; apply HlE; now right).
  apply NoDup_app_iff. split; [|split].
  - unfold edge_adj. destruct (nth_error (ge g) e) as [[a b]|] eqn:Ee; [|constructor].
    assert (a <> b) by (apply (HlE e); [now left|now left]).
    rewrite adj_of_noloop by auto.
    destruct (Nat.eqb v a); [repeat constructor; auto|]. destruct (Nat.eqb v b); repeat constructor; auto.
  - apply IH; auto.
  - intros u Hu Hin. apply edge_adj_In in Hu. apply in_flat_map in Hin as (f & Hf & Hj).
    apply edge_adj_In in Hj. rewrite (Hp e f v u Hu Hj) in He. contradiction.
Qed.

Lemma N_two v u : In u (N v) -> exists w, Permutation (N v) [u; w] /\ w <> u.
Proof.
  intros Hu. pose proof (N_NoDup v) as Hn. destruct (Hdeg v) as [H|H].
  - unfold N in Hu. rewrite H in Hu. destruct Hu.
  - fold (N v) in H. destruct (N v) as [|a [|b [|? ?]]] eqn:Ev; try discriminate H.
    apply NoDup_cons_iff in Hn as [Hab _]. cbn [In] in Hab.
    destruct Hu as [->|[->|[]]].
    + exists b. split; auto.
    + exists a. split; [apply perm_swap|]. intros ->. apply Hab. now left.
Qed.

Lemma grow root n : forall P prev cur,
  let w := P ++ [prev; cur] in
  hd_error w = Some root -> NoDup w -> Forall (fun v => v < gn g) w ->
  (forall a x y z b, w = a ++ x :: y :: z :: b -> Permutation (N y) [x; z]) ->
  In cur (N prev) -> gn g < n + length w ->
  exists w', traj N root prev (cur :: w').
Proof.
  induction n as [|n IH]; intros P prev cur w Hhd Hnd Hf Hint Hcur Hlen.
  - pose proof (NoDup_length_le _ _ Hnd Hf). lia.
  - assert (Hcr : cur <> root).
    { intros ->. unfold w in *. destruct P as [|r P].
      - cbn in Hhd. inversion Hhd; subst. apply NoDup_cons_iff in Hnd as [H _]. apply H. now left.
      - cbn in Hhd. inversion Hhd; subst. cbn [app] in Hnd. apply NoDup_cons_iff in Hnd as [H _].
        apply H. apply in_or_app. right. right. now left. }
    destruct (N_two cur prev (N_sym _ _ Hcur)) as (next & HN & Hne).
    assert (Hnx : In next (N cur)).
    { apply (Permutation_in _ (Permutation_sym HN)). right. now left. }
    destruct (Nat.eq_dec next root) as [->|Hnr].
    + exists [root]. constructor; auto. constructor.
    + assert (Hnew : ~ In next w).
      { intros Hin.
        assert (Hnc : next <> cur).
        { intros ->. apply (enbrs_irrefl g E HlE cur). exact Hnx. }
        (* an interior vertex of the path before prev *)
        assert (HinP : In next P).
        { unfold w in Hin. apply in_app_or in Hin as [Hin|[<-|[<-|[]]]]; auto; congruence. }
        apply in_split in HinP as (a & b & EP).
        destruct a as [|x a] using rev_ind.
        { unfold w in Hhd. rewrite EP in Hhd. cbn in Hhd. inversion Hhd. congruence. }
        clear IHa.
        assert (Hz : exists z b', b ++ [prev; cur] = z :: b' /\ b' <> []).
        { destruct b as [|z b]; [exists prev, [cur]|exists z, (b ++ [prev; cur])]; split; auto; try discriminate.
          destruct b; discriminate. }
        destruct Hz as (z & b' & Eb & Hb').
        assert (Ew : w = a ++ x :: next :: z :: b').
        { unfold w. rewrite EP, <- !app_assoc. cbn [app]. now rewrite Eb. }
        pose proof (Hint a x next z b' Ew) as HNn.
        assert (Hc : In cur (N next)) by now apply N_sym.
        apply (Permutation_in _ HNn) in Hc.
        (* cur is the last vertex of w, so it is neither x nor z *)
        assert (Hlast : exists b'', b' = b'' ++ [cur]).
        { destruct b' as [|y b''] using rev_ind; [congruence|]. exists b''.
          assert (E1 : b ++ [prev; cur] = (b ++ [prev]) ++ [cur]) by (rewrite <- app_assoc; reflexivity).
          rewrite E1 in Eb. change (z :: b'' ++ [y]) with ((z :: b'') ++ [y]) in Eb.
          apply app_inj_tail in Eb as [_ <-]. reflexivity. }
        destruct Hlast as [b'' ->].
        assert (Ew' : w = (a ++ x :: next :: z :: b'') ++ [cur]).
        { rewrite Ew, <- app_assoc. reflexivity. }
        rewrite Ew' in Hnd. apply NoDup_app_iff in Hnd as (_ & _ & Hd).
        destruct Hc as [<-|[<-|[]]].
        - apply (Hd x); [|now left]. apply in_or_app. right. now left.
        - apply (Hd z); [|now left]. apply in_or_app. right. right. right. now left. }
      destruct (IH (P ++ [prev]) cur next) as (w' & Hw').
      * rewrite <- app_assoc. cbn [app]. unfold w in Hhd. destruct P; exact Hhd.
      * rewrite <- app_assoc. cbn [app].
        replace (P ++ [prev; cur; next]) with (w ++ [next]) by (unfold w; rewrite <- app_assoc; reflexivity).
        apply NoDup_app_iff. split; auto. split; [repeat constructor; auto|].
        intros x Hx [<-|[]]. contradiction.
      * rewrite <- app_assoc. cbn [app].
        replace (P ++ [prev; cur; next]) with (w ++ [next]) by (unfold w; rewrite <- app_assoc; reflexivity).
        apply Forall_app. split; auto. constructor; auto. now apply N_lt in Hnx.
      * intros a x y z b Ew. rewrite <- app_assoc in Ew. cbn [app] in Ew.
        assert (Ew2 : w ++ [next] = a ++ x :: y :: z :: b).
        { rewrite <- Ew. unfold w. rewrite <- app_assoc. reflexivity. }
        destruct b as [|y' b] using rev_ind.
        -- assert (E3 : a ++ [x; y; z] = (a ++ [x; y]) ++ [z]) by (rewrite <- app_assoc; reflexivity).
           rewrite E3 in Ew2. apply app_inj_tail in Ew2 as [E4 <-].
           unfold w in E4. replace (P ++ [prev; cur]) with ((P ++ [prev]) ++ [cur]) in E4
             by (rewrite <- app_assoc; reflexivity).
           replace (a ++ [x; y]) with ((a ++ [x]) ++ [y]) in E4 by (rewrite <- app_assoc; reflexivity).
           apply app_inj_tail in E4 as [E5 <-]. apply app_inj_tail in E5 as [_ <-]. exact HN.
        -- clear IHb. assert (E3 : a ++ x :: y :: z :: b ++ [y'] = (a ++ x :: y :: z :: b) ++ [y'])
             by (rewrite <- app_assoc; reflexivity).
           rewrite E3 in Ew2. apply app_inj_tail in Ew2 as [E4 _]. eapply Hint; eauto.
      * exact Hnx.
      * rewrite <- app_assoc. cbn [app].
        replace (P ++ [prev; cur; next]) with (w ++ [next]) by (unfold w; rewrite <- app_assoc; reflexivity).
        rewrite app_length. cbn [length]. lia.
      * exists (next :: w'). constructor; auto.
Qed.

(** the cycle of the support through a vertex that has support edges *)
Lemma orbit r : N r <> [] -> exists t es, closed_tour g r 2 t /\ trail g t es /\
  incl es E /\ NoDup es /\ (forall v e u, In v t -> In e E -> joins g e v u -> In e es).
Proof.
  intros Hr. destruct (N r) as [|c l] eqn:ENr; [congruence|]. clear Hr.
  assert (Hc : In c (N r)) by (rewrite ENr; now left).
  destruct (N_lt c r Hc) as [Hcg Hrg].
  assert (Hcr : c <> r). { intros ->. apply (enbrs_irrefl g E HlE r). exact Hc. }
  destruct (grow r (gn g) [] r c) as (w' & Ht); cbn [app]; auto.
  - constructor; [|repeat constructor; auto]. intros [->|[]]. congruence.
  - intros a x y z b Ew. destruct a as [|? [|? [|? ?]]]; discriminate Ew.
  - cbn [length]. lia.
  - destruct (traj_end_s N r r (c :: w') Ht) as (vs & Evs & Hnin).
    assert (Hsym : forall u v, cnt (N u) v = cnt (N v) u) by (apply cnt_sym; auto).
    assert (Hirr : forall u, ~ In u (N u)) by (apply enbrs_irrefl; auto).
    assert (Hnd : NoDup (r :: vs)) by (eapply traj_nodup; eauto).
    destruct vs as [|c' vs]; [cbn in Evs; inversion Evs; congruence|].
    cbn [app] in Evs. injection Evs as Ec Ew. subst c'.
    (* consecutive vertices are neighbours *)
    assert (Hadj : forall w prev, traj N r prev w -> (exists q, hd_error w = Some q /\ In q (N prev)) ->
      forall i u v, nth_error (prev :: w) i = Some u -> nth_error (prev :: w) (S i) = Some v -> In v (N u)).
    { induction 1 as [prev|prev cur next w Hne HP Htj IH]; intros (q & Hq & Hqn) i u v Hi Hj.
      - destruct i as [|[|i]]; cbn in *; [|discriminate|discriminate].
        inversion Hi; inversion Hj; inversion Hq; subst. auto.
      - destruct i as [|i].
        + cbn in *. inversion Hi; inversion Hj; inversion Hq; subst. subst. auto.
        + cbn [nth_error] in Hi, Hj. apply (IH (ex_intro _ next (conj eq_refl
            (Permutation_in _ (Permutation_sym HP) (or_intror (or_introl eq_refl))))) i u v); auto. }
    specialize (Hadj (c :: w') r Ht (ex_intro _ c (conj eq_refl Hc))).
    rewrite Ew in Hadj. set (t := r :: (c :: vs) ++ [r]).
    destruct (choose_edges g E t) as (es & Htr & Hincl).
    { intros i u v Hi Hj. specialize (Hadj i u v Hi Hj). unfold N in Hadj.
      now apply enbrs_In in Hadj. }
    { discriminate. }
    assert (Hvl : 2 <= length (c :: vs)).
    { destruct vs as [|d vs]; [|cbn [length]; lia]. exfalso.
      pose proof (traj_pos N r r _ Ht 0 r c r eq_refl eq_refl) as Hpos.
      rewrite Ew in Hpos. destruct (Hpos eq_refl) as [_ HP].
      pose proof (N_NoDup c) as Hn2. apply (Permutation_NoDup HP) in Hn2.
      apply NoDup_cons_iff in Hn2 as [H _]. apply H. now left. }
    assert (Hnes : NoDup es) by (eapply (trail_nodup_big g r (c :: vs)); eauto).
    assert (Hct : closed_tour g r 2 t).
    { exists (c :: vs). split; auto. split; auto. split; auto. split.
      - eapply trail_walk; eauto.
      - assert (Hev : forall v, In v t -> v < gn g).
        { intros v Hv. apply In_nth_error in Hv as [i Hi]. destruct i as [|i].
          - cbn in Hi. inversion Hi; subst. auto.
          - destruct (nth_error t i) as [u|] eqn:Eu.
            + specialize (Hadj i u v Eu Hi). now apply N_lt in Hadj.
            + apply nth_error_None in Eu. apply nth_error_Some_lt in Hi. lia. }
        apply Forall_forall. auto. }
    exists t, es. split; auto. split; auto. split; auto. split; auto.
    intros v e u Hv He Hj.
    destruct (in_dec Nat.eq_dec e es) as [|Hnot]; auto. exfalso.
    (* E = es + e + rest; the degree of v in es is already 2 *)
    assert (HPE : exists rest, Permutation E (es ++ e :: rest)).
    { assert (Hinc2 : incl (e :: es) E) by (intros x [<-|Hx]; auto).
      assert (Hn2 : NoDup (e :: es)) by (constructor; auto).
      destruct (Permutation_incl_split (e :: es) E) as [rest HP]; auto.
      exists rest. rewrite HP. apply (Permutation_middle es rest e). }
    destruct HPE as [rest HP].
    assert (Hct1 : closed_tour g r 1 t) by (apply (closed_weaken _ r 2 1); auto).
    pose proof (closed_degree g r t es v Hct1 Htr) as Hd.
    rewrite (proj2 (memb_In v t) Hv) in Hd.
    pose proof (Permutation_length (enbrs_perm g _ _ v HP)) as HL.
    unfold enbrs at 2 in HL. rewrite flat_map_app, app_length in HL. cbn [flat_map] in HL.
    rewrite app_length in HL. fold (enbrs g es v) in HL. rewrite Hd in HL.
    assert (He1 : 0 < length (edge_adj g v e)).
    { assert (In u (edge_adj g v e)) by now apply edge_adj_In.
      destruct (edge_adj g v e); [contradiction|cbn; lia]. }
    destruct (Hdeg v) as [H0|H2]; [rewrite H0 in HL; cbn in HL; lia|lia].
Qed.
End ORBIT.

(** ** components of the support graph *)
Lemma support_components_ok g s root : graph_ok g -> (Z.of_nat (gn g) <= int_max)%Z -> root < gn g ->
  exists cvs rid, support_components g s root = Ok (cvs, rid) /\ rid < length cvs /\
    (forall id S, nth_error cvs id = Some S ->
       NoDup S /\ Forall (fun v => v < gn g) S /\ (In root S <-> id = rid) /\
       forall a, In a S -> forall b, In b S <-> connected (filter_positive g s) a b) /\
    (forall v, v < gn g -> exists id S, nth_error cvs id = Some S /\ In v S).
Proof.
  intros Hg Hmax Hr. unfold support_components. cbn zeta.
  set (sg := filter_positive g s).
  assert (Hsg : graph_ok sg) by (now apply support_ok).
  assert (Hgn : gn sg = gn g) by reflexivity.
  destruct (connected_components_ok sg Hsg Hmax) as (cs & k & E & Hlen & Hk & Hconn & Hused).
  rewrite E. cbn [bind].
  destruct (component_vectors_ok sg k cs Hlen Hk) as (cvs & Ec & Hcl & Hcv).
  rewrite Ec. cbn [bind].
  destruct (nth_error cs root) as [rid|] eqn:Er.
  2:{ apply nth_error_None in Er. lia. }
  rewrite (vget_some _ _ _ Er). cbn [bind]. exists cvs, rid. split; auto.
  assert (Hrk : rid < k).
  { rewrite Forall_forall in Hk. apply Hk. eapply nth_error_In; eauto. }
  split; [lia|]. split.
  - intros id S HS. pose proof (nth_error_Some_lt _ _ _ HS) as Hid.
    rewrite Hcv in HS by lia. inversion HS; subst S. clear HS.
    assert (HIn : forall v, In v (cls cs (vertices sg) id) <-> nth_error cs v = Some id).
    { intros v. rewrite cls_In. split; [tauto|]. intros H. split; auto.
      apply in_seq. apply nth_error_Some_lt in H. unfold sg in *. cbn [filter_positive gn] in *. lia. }
    split; [apply cls_NoDup|]. split; [|split].
    + apply Forall_forall. intros v Hv. apply HIn in Hv. apply nth_error_Some_lt in Hv. lia.
    + rewrite HIn, Er. split; [congruence|]. now intros ->.
    + intros a Ha b. rewrite HIn. apply HIn in Ha. now apply Hconn.
  - intros v Hv. destruct (nth_error cs v) as [id|] eqn:Ev.
    2:{ apply nth_error_None in Ev. lia. }
    assert (Hid : id < k) by (rewrite Forall_forall in Hk; apply Hk; eapply nth_error_In; eauto).
    exists id, (cls cs (vertices sg) id). split; [now apply Hcv|]. apply cls_In. split; auto.
    apply in_seq. unfold sg. cbn [filter_positive gn]. lia.
Qed.

Lemma trail_connected g s t es : trail g t es ->
  (forall e, In e es -> is_var_positive s e = true) ->
  forall a v, hd_error t = Some a -> In v t -> connected (filter_positive g s) a v.
Proof.
  induction 1 as [u|u v w e es Hj Ht IH]; intros Hpos a x Ha Hx.
  - cbn in Ha. inversion Ha; subst. destruct Hx as [<-|[]]. constructor.
  - cbn in Ha. inversion Ha; subst a. destruct Hx as [<-|Hx]; [constructor|].
    apply connected_trans with v.
    + apply connected_edge. apply support_edge. exists e. split; auto. apply Hpos. now left.
    + apply IH; auto. intros f Hf. apply Hpos. now right.
Qed.

Lemma connected_step_out g a b : connected g a b -> a <> b -> exists c, c <> a /\ is_edge g a c.
Proof.
  induction 1 as [u|u v w Hc IH He]; intros Hne; [congruence|].
  destruct (Nat.eq_dec u v) as [<-|Huv]; [|auto]. exists w. auto.
Qed.

Lemma connected_inv g (P : nat -> Prop) a b : connected g a b ->
  (forall u v, P u -> is_edge g u v -> P v) -> P a -> P b.
Proof. induction 1 as [u|u v w Hc IH He]; intros Hcl Ha; auto. eapply Hcl; [|exact He]. auto. Qed.

(** ** how separation changes the state *)
Definition valid_row (g : graph) (root : nat) (row : lin) : Prop :=
  forall t s, tour_from g root t -> incidence g t s -> row_sat s row.

Definition extends (g : graph) (root : nat) (added : list lin) (st st' : sepa) : Prop :=
  sp_rows st' = sp_rows st ++ added /\ Forall (valid_row g root) added /\
  ((added = [] /\ st' = st) \/
   (added <> [] /\ (sp_result st' = Separated \/ sp_result st' = Cutoff))).

Lemma extends_refl g root st : extends g root [] st st.
Proof. split; [now rewrite app_nil_r|]. split; [constructor|]. auto. Qed.

Lemma extends_trans g root l1 l2 a b c : extends g root l1 a b -> extends g root l2 b c ->
  extends g root (l1 ++ l2) a c.
Proof.
  intros (E1 & F1 & D1) (E2 & F2 & D2). split; [now rewrite E2, E1, app_assoc|].
  split; [apply Forall_app; auto|].
  destruct D2 as [[-> ->]|[Hn Hr]].
  - rewrite app_nil_r. exact D1.
  - right. split; auto. destruct l1; [exact Hn|discriminate].
Qed.

Lemma adds_row_extends lib g root row st st' : adds_row lib row st st' -> valid_row g root row ->
  exists added, extends g root added st st' /\ (efficacious lib row = true -> added = [row]).
Proof.
  unfold adds_row. intros -> Hv. destruct (efficacious lib row).
  - exists [row]. split; auto. split; [reflexivity|]. split; [auto|]. right.
    split; [discriminate|]. cbn [sp_result]. destruct (row_infeasible lib row); auto.
  - exists []. split; [apply extends_refl|discriminate].
Qed.

Lemma fold_extends {A} g root (f : sepa * nat -> A -> res (sepa * nat)) (bad : lin -> Prop)
  (cond : A -> Prop) l :
  (forall st a, In a l -> exists st' added, f st a = Ok st' /\
     extends g root added (fst st) (fst st') /\ snd st <= snd st' /\
     (cond a -> Exists bad added /\ snd st < snd st')) ->
  forall st, exists st' added, foldM f l st = Ok st' /\
     extends g root added (fst st) (fst st') /\ snd st <= snd st' /\
     (Exists cond l -> Exists bad added /\ snd st < snd st').
Proof.
  induction l as [|a l IH]; intros H st.
  - exists st, []. split; auto. split; [apply extends_refl|]. split; auto.
    intros HE. inversion HE.
  - destruct (H st a (or_introl eq_refl)) as (st1 & ad1 & E1 & X1 & L1 & C1).
    destruct (IH (fun s b Hb => H s b (or_intror Hb)) st1) as (st2 & ad2 & E2 & X2 & L2 & C2).
    exists st2, (ad1 ++ ad2). cbn [foldM]. rewrite E1. cbn [bind]. split; auto.
    split; [eapply extends_trans; eauto|]. split; [lia|]. intros HE.
    rewrite Exists_app. inversion HE as [? ? Hc|? ? Hc]; subst.
    + destruct (C1 Hc). split; auto. lia.
    + destruct (C2 Hc). split; auto. lia.
Qed.

(** ** the violated row *)
Lemma zsum_all (x : nat -> Z) D l : (forall e, In e l -> x e = D) ->
  zsum x l = (D * Z.of_nat (length l))%Z.
Proof.
  induction l as [|e l IH]; intros H; [cbn; lia|]. cbn [zsum length].
  rewrite IH by (intros; apply H; now right). rewrite (H e (or_introl eq_refl)). lia.
Qed.

Lemma sec_violated g s S target es ls : (0 < s_den s)%Z -> NoDup S -> In target S ->
  Forall2 (fun v l => step_edge g v v l) (filter (fun v => negb (Nat.eqb v target)) S) ls ->
  zsum (s_num s) es = (s_den s * Z.of_nat (length S))%Z ->
  (forall v l, In v S -> joins g l v v -> s_num s l = s_den s) ->
  ~ row_sat s (mkLin (combine (es ++ ls) (repeat 1%Z (length es) ++ repeat (-1)%Z (length ls)))
                   None (Some 0%Z)).
Proof.
  intros HD Hn Ht Hls Hes Hl [_ Hrow]. cbn [l_rhs l_terms] in Hrow. specialize (Hrow 0%Z eq_refl).
  rewrite combine_app_eq in Hrow by (now rewrite repeat_length).
  rewrite lin_value_app, !lin_value_const, Hes in Hrow.
  rewrite (zsum_all _ (s_den s) ls) in Hrow.
  - pose proof (Forall2_length_eq _ _ _ Hls) as HL.
    pose proof (filter_count_remove (fun _ => true) target S Hn Ht) as Hc.
    rewrite !(filter_all (fun _ => true)) in Hc by auto. nia.
  - intros e He. destruct (Forall2_In_r _ _ _ _ Hls He) as (v & Hv & [Hj _]).
    apply filter_In in Hv as [Hv _]. eapply Hl; eauto.
Qed.

Section SEPARATE.
Variable g : graph.
Hypothesis Hg : graph_ok g.
Hypothesis Hp : no_parallel g.
Hypothesis Hl : all_loops g.
Hypothesis Hmax : (Z.of_nat (gn g) <= int_max)%Z.
Variable s : sol.
Hypothesis Hb : binary g s.
Variable root : nat.
Hypothesis Hr : root < gn g.
Hypothesis Hdeg : forall v l, v < gn g -> joins g l v v ->
  (2 * s_num s l = s_den s * Z.of_nat (length (enbrs g (sup g s) v)))%Z.
Hypothesis Hroot : forall l, joins g l root root -> s_num s l = s_den s.

Let sg := filter_positive g s.

Lemma sup_degree v : enbrs g (sup g s) v = [] \/ length (enbrs g (sup g s) v) = 2.
Proof.
  destruct (enbrs g (sup g s) v) as [|u l] eqn:E; [now left|right]. rewrite <- E.
  assert (Hv : v < gn g).
  { apply (N_lt g Hg (sup g s) u v). rewrite E. now left. }
  destruct (Hl v Hv) as [e He]. specialize (Hdeg v e Hv He).
  pose proof (joins_lt _ _ _ _ He) as Hlt. destruct Hb as [HD Hbin].
  rewrite E in *. destruct (Hbin e Hlt) as [H|H]; rewrite H in Hdeg.
  - cbn [length] in Hdeg. rewrite Nat2Z.inj_succ in Hdeg. nia.
  - assert (Z.of_nat (length (u :: l)) = 2)%Z; [|lia].
    apply (Z.mul_cancel_l _ _ (s_den s)); lia.
Qed.

Lemma sup_loop_one v l : enbrs g (sup g s) v <> [] -> joins g l v v -> s_num s l = s_den s.
Proof.
  intros Hne Hj. destruct (sup_degree v) as [H|H]; [contradiction|].
  assert (Hv : v < gn g) by (apply (is_edge_range g v v Hg); now exists l).
  specialize (Hdeg v l Hv Hj). rewrite H in Hdeg. lia.
Qed.

Lemma root_degree : enbrs g (sup g s) root <> [].
Proof.
  intros E. destruct (Hl root Hr) as [l Hj]. specialize (Hdeg root l Hr Hj).
  rewrite (Hroot l Hj), E in Hdeg. destruct Hb as [HD _].
  change (length (@nil nat)) with 0 in Hdeg. lia.
Qed.

Lemma sup_positive e : In e (sup g s) -> is_var_positive s e = true.
Proof.
  intros He. apply sup_In in He as (H1 & _ & H2). rewrite (positive_oneb g s Hb e H1).
  unfold oneb. now apply Z.eqb_eq.
Qed.

Lemma positive_sup e u v : joins g e u v -> u <> v -> is_var_positive s e = true -> In e (sup g s).
Proof.
  intros Hj Hne H. pose proof (joins_lt _ _ _ _ Hj) as Hlt.
  rewrite (positive_oneb g s Hb e Hlt) in H. unfold oneb in H. apply Z.eqb_eq in H.
  apply sup_In. split; auto. split; auto. rewrite (loopb_joins g e u v Hj). now apply Nat.eqb_neq.
Qed.

Lemma component_orbit a t es : closed_tour g a 2 t -> trail g t es -> incl es (sup g s) ->
  (forall v e u, In v t -> In e (sup g s) -> joins g e v u -> In e es) ->
  forall b, connected sg a b <-> In b t.
Proof.
  intros Ht Htr Hin Hcl b. assert (Ha : hd_error t = Some a) by (destruct Ht as (vs & -> & _); reflexivity).
  split.
  - intros Hc. apply (connected_inv sg (fun v => In v t) a b Hc).
    + intros u v Hu He. apply support_edge in He as (e & Hj & Hpos).
      destruct (Nat.eq_dec u v) as [->|Hne]; auto.
      pose proof (positive_sup e u v Hj Hne Hpos) as Hes.
      specialize (Hcl u e v Hu Hes Hj).
      destruct (trail_In_split g t es e Htr Hcl) as (l1 & x & y & l2 & E & Hxy).
      destruct (joins_fun g e u v x y Hj Hxy) as [[-> ->]|[-> ->]]; rewrite E;
        apply in_or_app; right; [right; now left|now left].
    + destruct Ht as (vs & -> & _). now left.
  - intros Hb'. apply (trail_connected g s t es Htr); auto. intros e He. apply sup_positive. auto.
Qed.

Lemma orbit_of a : enbrs g (sup g s) a <> [] -> exists t es, closed_tour g a 2 t /\ trail g t es /\
  incl es (sup g s) /\ NoDup es /\
  (forall v e u, In v t -> In e (sup g s) -> joins g e v u -> In e es) /\
  (forall b, connected sg a b <-> In b t).
Proof.
  intros Ha.
  destruct (orbit g Hg Hp (sup g s) (sup_NoDup g s) (sup_valid g s) (sup_no_loops g s)
    sup_degree a Ha) as (t & es & H1 & H2 & H3 & H4 & H5).
  exists t, es. repeat (split; auto). 
  - apply (component_orbit a t es); auto.
  - apply (component_orbit a t es); auto.
Qed.

(** the component of a support vertex carries exactly as many support edges as vertices *)
Lemma component_sums a S es : enbrs g (sup g s) a <> [] -> NoDup S -> In a S ->
  (forall b, In b S <-> connected sg a b) -> induced g S es ->
  zsum (s_num s) es = (s_den s * Z.of_nat (length S))%Z /\
  (forall v l, In v S -> joins g l v v -> s_num s l = s_den s).
Proof.
  intros Ha HnS HaS HS [He1 He2].
  destruct (orbit_of a Ha) as (t & et & Ht & Htr & Hin & Hnd & Hcl & Hcon).
  assert (HSt : forall b, In b S <-> In b t) by (intros b; rewrite HS; apply Hcon).
  assert (Htl := trail_length g t et Htr).
  assert (HlS : length S = length et).
  { destruct Ht as (vs & Et & Hnv & _). transitivity (length (a :: vs)).
    - apply Permutation_length, NoDup_Permutation; auto.
      intros v. rewrite HSt, Et. cbn [In]. rewrite in_app_iff. cbn [In]. tauto.
    - rewrite Et in Htl. cbn [length] in *. rewrite app_length in Htl. cbn [length] in Htl. lia. }
  split.
  - rewrite (zsum_count (s_num s) (s_den s) (oneb s)).
    + rewrite HlS. do 2 f_equal. apply Permutation_length, NoDup_Permutation; auto.
      { now apply NoDup_filter. }
      intros e. rewrite filter_In. split.
      * intros [H1 H2]. apply He2 in H1 as (u & v & Hu & Hv & Hne & [Hj _]).
        apply (Hcl u e v); [now apply HSt| |auto]. apply (positive_sup e u v); auto.
        pose proof (joins_lt _ _ _ _ Hj). now rewrite (positive_oneb g s Hb).
      * intros H. specialize (Hin e H). split.
        -- apply He2. destruct (trail_In_split g t et e Htr H) as (l1 & x & y & l2 & E & Hxy).
           exists x, y. split; [apply HSt; rewrite E; apply in_or_app; right; now left|].
           split; [apply HSt; rewrite E; apply in_or_app; right; right; now left|].
           split; [apply (sup_no_loops g s e x y Hin Hxy)|]. split; auto.
           intros f Hf. rewrite (Hp e f x y Hxy Hf). lia.
        -- apply sup_In in Hin as (_ & _ & H3). unfold oneb. now apply Z.eqb_eq.
    + intros e He. apply He2 in He as (u & v & _ & _ & _ & [Hj _]).
      pose proof (joins_lt _ _ _ _ Hj) as Hlt. unfold oneb.
      destruct (proj2 Hb e Hlt) as [H|H]; rewrite H; destruct (Z.eqb_spec 0 (s_den s)) as [E0|E0];
        rewrite ?Z.eqb_refl; auto.
  - intros v l Hv Hj. apply (sup_loop_one v l); auto.
    apply HSt in Hv.
    assert (Hct1 : closed_tour g a 1 t) by (apply (closed_weaken _ a 2 1); auto).
    pose proof (closed_degree g a t et v Hct1 Htr) as Hd. rewrite (proj2 (memb_In v t) Hv) in Hd.
    intros E. destruct (enbrs g et v) as [|u q] eqn:Eu; [discriminate|].
    assert (Hu : In u (enbrs g et v)) by (rewrite Eu; now left).
    apply enbrs_In in Hu as (e & H1 & H2).
    assert (Hu : In u (enbrs g (sup g s) v)) by (apply enbrs_In; exists e; auto).
    rewrite E in Hu. destruct Hu.
Qed.

Lemma sec_component_ok lib S st : NoDup S -> Forall (fun v => v < gn g) S -> ~ In root S ->
  exists st' added, sec_component lib g (var_map g) root S st = Ok st' /\
    extends g root added (fst st) (fst st') /\ snd st <= snd st' /\
    ((exists a, In a S /\ enbrs g (sup g s) a <> [] /\ forall b, In b S <-> connected sg a b) ->
     (forall row, ~ row_sat s row -> efficacious lib row = true) ->
     Exists (fun row => ~ row_sat s row) added /\ snd st < snd st').
Proof.
  intros Hn Hf Hrn.
  destruct (fold_extends g root
    (fun st target => do st' <- add_sec lib g (var_map g) S root target (fst st);
                      Ok (st', Datatypes.S (snd st)))
    (fun row => ~ row_sat s row)
    (fun _ => (exists a, In a S /\ enbrs g (sup g s) a <> [] /\
                 forall b, In b S <-> connected sg a b) /\
              forall row, ~ row_sat s row -> efficacious lib row = true) S) with (st := st)
    as (st' & added & E & X & L & C).
  - intros st0 target Ht.
    assert (Hl' : forall v, In v S -> is_edge g v v).
    { intros v Hv. apply Hl. rewrite Forall_forall in Hf. auto. }
    destruct (sec_terms_out g S root target Hf Hn Hl' Hrn Ht) as (es & ls & E & He & Hls).
    unfold add_sec. rewrite E. cbn [bind].
    destruct (add_row_ok lib (es ++ ls) (repeat 1%Z (length es) ++ repeat (-1)%Z (length ls))
      None (Some 0%Z) (fst st0)) as (st1 & Es & Hs).
    { now rewrite !app_length, !repeat_length. }
    rewrite Es. cbn [bind].
    destruct (adds_row_extends lib g root _ (fst st0) st1 Hs) as (added & X & Hadd).
    { intros t s' Ht' Hi. eapply sec_out_valid; eauto. }
    exists (st1, Datatypes.S (snd st0)), added. split; auto. split; auto. split; [cbn; lia|].
    intros [(a & Ha & Hna & Hcon) Heff]. split; [|cbn; lia].
    destruct (component_sums a S es Hna Hn Ha Hcon He) as [H1 H2].
    assert (Hviol := sec_violated g s S target es ls (proj1 Hb) Hn Ht Hls H1 H2).
    rewrite Hadd by (now apply Heff). constructor. exact Hviol.
  - exists st', added. split; auto. split; auto. split; auto. intros Hc Heff. apply C.
    destruct Hc as (a & Ha & H). apply Exists_exists. exists a. split; auto. split; eauto.
Qed.

Lemma disjoint_tour_ok lib st :
  exists st' n added, separate_subtour_disjoint lib g s (var_map g) root st = Ok (st', n) /\
    extends g root added st st' /\
    ((exists t, tour_from g root t /\ incidence g t s) -> st' = st /\ n = 0) /\
    (~ (exists t, tour_from g root t /\ incidence g t s) ->
     (forall row, ~ row_sat s row -> efficacious lib row = true) ->
     Exists (fun row => ~ row_sat s row) added /\ 0 < n).
Proof.
  unfold separate_subtour_disjoint.
  destruct (support_components_ok g s root Hg Hmax Hr) as (cvs & rid & E & Hrid & Hcv & Hcov).
  rewrite E. cbn [bind]. unfold separate_disjoint_tour.
  (* a point that is not a tour has a support vertex outside the component of the root *)
  assert (Hout : ~ (exists t, tour_from g root t /\ incidence g t s) ->
    exists a, a < gn g /\ enbrs g (sup g s) a <> [] /\ ~ connected sg root a).
  { intros Hnt. destruct (orbit_of root root_degree) as (t & et & Ht & Htr & Hin & Hnd & Hcl & Hcon).
    destruct (existsb (fun e => negb (memb e et)) (sup g s)) eqn:Ex.
    - apply existsb_exists in Ex as (e & He & Hne). apply negb_true_iff, memb_not_In in Hne.
      pose proof (proj1 (sup_In g s e) He) as (Hlt & _ & _).
      destruct (nth_error (ge g) e) as [[a b]|] eqn:Ee; [|apply nth_error_None in Ee; lia].
      assert (Hj : joins g e a b) by now left.
      exists a. split; [apply (is_edge_range g a b Hg); now exists e|]. split.
      + assert (Hb' : In b (enbrs g (sup g s) a)) by (apply enbrs_In; exists e; auto).
        intros E0. rewrite E0 in Hb'. destruct Hb'.
      + intros Hc. apply Hne. apply (Hcl a e b); auto. now apply Hcon.
    - exfalso. apply Hnt. apply (support_cycle g Hg Hl s root Hb Hr Hdeg Hroot).
      exists root, t, et. split; auto. split; auto.
      apply NoDup_Permutation; auto; [apply sup_NoDup|]. intros e. split; auto. intros He.
      destruct (memb e et) eqn:Em; [now apply memb_In|].
      assert (Hx : existsb (fun e => negb (memb e et)) (sup g s) = true).
      { apply existsb_exists. exists e. now rewrite Em. }
      congruence. }
  (* at a tour every component with two vertices contains the root *)
  assert (Hall : (exists t, tour_from g root t /\ incidence g t s) ->
    forall id S, nth_error cvs id = Some S -> 2 <= length S -> id = rid).
  { intros (t & Ht & Hi) id S HS Hlen. destruct (Hcv id S HS) as (HnS & HfS & HrS & HcS).
    apply HrS. destruct S as [|a [|b S]]; [cbn in Hlen; lia|cbn in Hlen; lia|].
    assert (Hab : connected sg a b) by (apply (HcS a); [now left|right; now left]).
    assert (Hne : a <> b). { intros ->. apply NoDup_cons_iff in HnS as [H _]. apply H. now left. }
    destruct (connected_step_out sg a b Hab Hne) as (c & Hca & Hec).
    apply support_edge in Hec as (e & Hj & Hpos).
    assert (Hsup : In e (sup g s)) by (apply (positive_sup e a c); auto).
    destruct (incidence_sup g s root t Ht Hi) as (_ & es & Htr & HP & _ & _).
    apply (Permutation_in _ (Permutation_sym HP)) in Hsup.
    destruct (trail_In_split g t es e Htr Hsup) as (l1 & x & y & l2 & Et & Hxy).
    assert (Hat : In a t).
    { destruct (joins_fun g e a c x y Hj Hxy) as [[-> _]|[-> _]]; rewrite Et; apply in_or_app; right;
        [now left|right; now left]. }
    assert (Hra : connected sg root a).
    { apply (trail_connected g s t es Htr); auto.
      - intros f Hf. apply sup_positive. apply (Permutation_in _ HP); auto.
      - destruct Ht as (vs & -> & _). reflexivity. }
    apply (HcS a); [now left|]. apply connected_sym; auto. }
  destruct (Nat.eqb_spec (length cvs) 1) as [H1|H1].
  { exists st, 0, []. split; auto. split; [apply extends_refl|]. split; auto.
    intros Hnt _. exfalso. destruct (Hout Hnt) as (a & Ha & _ & Hna).
    destruct (Hcov a Ha) as (id & S & HS & HaS).
    destruct (Hcov root Hr) as (id' & S' & HS' & HrS').
    assert (id = id') by (apply nth_error_Some_lt in HS; apply nth_error_Some_lt in HS'; lia).
    subst id'. rewrite HS in HS'. inversion HS'; subst S'.
    apply Hna. apply (proj2 (proj2 (proj2 (Hcv id S HS))) root HrS'). auto. }
  destruct (fold_extends g root (fun st id =>
             do S <- vget cvs id;
             if andb (negb (Nat.eqb id rid)) (Nat.leb 2 (length S))
             then sec_component lib g (var_map g) root S st else Ok st)
    (fun row => ~ row_sat s row)
    (fun id => (exists S a, nth_error cvs id = Some S /\ In a S /\ enbrs g (sup g s) a <> [] /\
                 ~ In root S) /\
               forall row, ~ row_sat s row -> efficacious lib row = true)
    (seq 0 (length cvs))) with (st := (st, 0)) as ([st' n] & added & Ef & X & L & C).
  - intros st0 id Hid. apply in_seq in Hid.
    destruct (nth_error cvs id) as [S|] eqn:ES; [|apply nth_error_None in ES; lia].
    rewrite (vget_some _ _ _ ES). cbn [bind].
    destruct (Hcv id S ES) as (HnS & HfS & HrS & HcS).
    destruct (Nat.eqb_spec id rid) as [Hir|Hir]; cbn [negb andb].
    + exists st0, []. split; auto. split; [apply extends_refl|]. split; auto.
      intros [(S' & a & HS' & _ & _ & Hnr) _]. exfalso. inversion HS'; subst S'.
      apply Hnr. now apply HrS.
    + destruct (Nat.leb_spec 2 (length S)) as [H2|H2].
      * destruct (sec_component_ok lib S st0 HnS HfS) as (st1 & ad & E1 & X1 & L1 & C1).
        { rewrite HrS. auto. }
        exists st1, ad. split; auto. split; auto. split; auto.
        intros [(S' & a & HS' & HaS & Hna & _) Heff]. inversion HS'; subst S'.
        apply C1; auto. exists a. split; auto.
      * exists st0, []. split; auto. split; [apply extends_refl|]. split; auto.
        intros [(S' & a & HS' & HaS & Hna & _) _]. exfalso. inversion HS'; subst S'.
        destruct (orbit_of a Hna) as (t & et & Ht & _ & _ & _ & _ & Hcon).
        destruct Ht as (vs & Et & Hnv & Hlv & _).
        assert (Hinc : incl (a :: vs) S).
        { intros v Hv. apply (HcS a HaS), Hcon. rewrite Et. cbn [In] in *. rewrite in_app_iff. tauto. }
        pose proof (NoDup_incl_length Hnv Hinc). cbn [length] in *. lia.
  - exists st', n, added. split; [exact Ef|]. split; [exact X|]. split.
    + intros Htour.
      assert (Hconst : forall l st0, Forall (fun id => id < length cvs) l ->
        foldM (fun st id =>
             do S <- vget cvs id;
             if andb (negb (Nat.eqb id rid)) (Nat.leb 2 (length S))
             then sec_component lib g (var_map g) root S st else Ok st) l st0 = Ok st0).
      { induction l as [|id l IH]; intros st0 Hfl; [reflexivity|].
        apply Forall_cons_iff in Hfl as [Hid Hfl]. cbn [foldM].
        destruct (nth_error cvs id) as [S|] eqn:ES; [|apply nth_error_None in ES; lia].
        rewrite (vget_some _ _ _ ES). cbn [bind].
        destruct (Nat.leb_spec 2 (length S)) as [H2|H2].
        - rewrite (Hall Htour id S ES H2), Nat.eqb_refl. cbn [negb andb bind]. now apply IH.
        - rewrite andb_false_r. cbn [bind]. now apply IH. }
      rewrite Hconst in Ef; [inversion Ef; auto|].
      apply Forall_forall. intros id Hid. apply in_seq in Hid. lia.
    + intros Hnt Heff. apply C. destruct (Hout Hnt) as (a & Ha & Hna & Hnc).
      destruct (Hcov a Ha) as (id & S & HS & HaS).
      apply Exists_exists. exists id. split.
      * apply nth_error_Some_lt in HS. apply in_seq. lia.
      * split; auto. exists S, a. split; auto. split; auto. split; auto. intros Hrs.
        apply Hnc. apply (proj2 (proj2 (proj2 (Hcv id S HS))) root Hrs). auto.
Qed.
End SEPARATE.
