(** * P_ExtRounds: the rounds of path extension *)
From Verif Require Import Base Graph Spec Spec_Ext M_Float M_Walk M_Graph M_Extension.
From Verif Require Import P_Base P_Walk P_Float P_BFS P_Choose P_Extension.
From Coq Require Import Sorted.
Open Scope nat_scope.

Lemma ins_sorted_sorted x l : StronglySorted le l -> StronglySorted le (ins_sorted x l).
Proof.
  induction 1 as [|y l Hs IH Hf]; cbn [ins_sorted]; [repeat constructor|].
  destruct (Nat.leb_spec x y) as [H|H].
  - constructor; [constructor; auto|]. constructor; auto.
    eapply Forall_impl; [|exact Hf]. simpl. lia.
  - constructor; auto. apply Forall_forall. intros z Hz. apply ins_sorted_In in Hz as [->|Hz]; [lia|].
    rewrite Forall_forall in Hf. auto.
Qed.

Lemma sort_nat_sorted l : StronglySorted le (sort_nat l).
Proof. induction l; cbn [sort_nat]; [constructor|]. now apply ins_sorted_sorted. Qed.

Lemma set_intersection_complete u l1 : StronglySorted le l1 -> forall l2, StronglySorted le l2 ->
  In u l1 -> In u l2 -> In u (set_intersection l1 l2).
Proof.
  induction 1 as [|x t1 Hs1 IH Hf1]; [intros l2 _ []|].
  induction 1 as [|y t2 Hs2 IH2 Hf2]; [intros _ []|]. intros H1 H2.
  change (set_intersection (x :: t1) (y :: t2)) with
    (if x <? y then set_intersection t1 (y :: t2)
     else if y <? x then set_intersection (x :: t1) t2
     else x :: set_intersection t1 t2).
  rewrite Forall_forall in Hf1, Hf2.
  destruct (Nat.ltb_spec x y) as [H|H].
  - destruct H1 as [->|H1].
    + exfalso. destruct H2 as [->|H2]; [lia|]. apply Hf2 in H2. lia.
    + apply IH; auto. constructor; auto. now apply Forall_forall.
  - destruct (Nat.ltb_spec y x) as [H'|H'].
    + destruct H2 as [->|H2]; [|auto]. exfalso. destruct H1 as [->|H1]; [lia|]. apply Hf1 in H1. lia.
    + assert (x = y) by lia. subst y. destruct H1 as [->|H1]; [now left|].
      destruct H2 as [->|H2]; [now left|]. right. auto.
Qed.

Lemma neighbor_intersection_exact g u v : u < gn g -> v < gn g ->
  exists l, neighbor_intersection g u v = Ok l /\ forall w, In w l <-> is_edge g u w /\ is_edge g v w.
Proof.
  intros Hu Hv. unfold neighbor_intersection. rewrite !adjacent_ok by auto. cbn [bind].
  eexists; split; [reflexivity|]. intros w. split.
  - intros Hw. apply set_intersection_In in Hw as [H1 H2].
    rewrite sort_nat_In in *. split; now apply nbrs_In.
  - intros [H1 H2]. apply set_intersection_complete; try apply sort_nat_sorted;
      apply sort_nat_In; now apply nbrs_In.
Qed.

Lemma within_iff g (ok1 ok2 : nat -> Prop) s : graph_ok g -> (forall v, v < gn g -> (ok1 v <-> ok2 v)) ->
  forall d v, within g ok1 s d v <-> within g ok2 s d v.
Proof.
  intros Hg H.
  assert (G : forall o1 o2 : nat -> Prop, (forall v, v < gn g -> (o1 v -> o2 v)) ->
    forall d v, within g o1 s d v -> within g o2 s d v).
  { intros o1 o2 Ho d v. induction 1 as [|d u v Hw IH He Hv]; [constructor|].
    econstructor; eauto. apply Ho; auto. now apply (is_edge_range g u v Hg He). }
  intros d v. split; apply G; intros w Hw; now apply H.
Qed.

Lemma dist_iff g (ok1 ok2 : nat -> Prop) s d v : graph_ok g -> (forall v, v < gn g -> (ok1 v <-> ok2 v)) ->
  dist g ok1 s d v -> dist g ok2 s d v.
Proof.
  intros Hg H [H1 H2]. split; [now apply (within_iff g ok1 ok2)|].
  intros d' Hd Hw. apply (H2 d' Hd). now apply (within_iff g ok1 ok2).
Qed.

Lemma walk_range_len g w : graph_ok g -> is_walk g w -> 2 <= length w -> Forall (fun v => v < gn g) w.
Proof.
  intros Hg H. induction H as [|u|u v w He Hw IH]; cbn [length]; intros Hl; try lia.
  destruct (is_edge_range g u v Hg He) as [H1 H2]. constructor; auto.
  destruct w; [repeat constructor; auto|]. apply IH. cbn [length]. lia.
Qed.

Section Rounds.
Context (g : graph) (c p : list Z) (r : nat) (C P : Z).
Context (Hg : graph_ok g) (Hmax : (Z.of_nat (gn g) <= int_max)%Z).
Context (Hc : costs_within g c (- C) C) (Hp : prizes_within g p 0 P).
Context (HC : (0 <= C)%Z) (HP : (0 <= P)%Z).
Context (HLC : (2 * (Z.of_nat (S (gn g)) * C) <= int_max)%Z).
Context (HLP : (2 * (Z.of_nat (S (gn g)) * P) <= int_max)%Z).

Let fitsL := fits g (S (gn g)).

Lemma detours_two t internal x y : x < gn g -> y < gn g ->
  exists cs, cands_depth2 g t x y = Ok cs /\ detours g p t internal x y 2 cs.
Proof.
  intros Hx Hy. unfold cands_depth2.
  destruct (neighbor_intersection_exact g x y Hx Hy) as (l & E & Hl). rewrite E. cbn [bind].
  eexists; split; [reflexivity|]. split; [lia|]. split; [|lia]. intros _ path. rewrite in_map_iff. split.
  - intros (u & <- & Hu). apply filter_In in Hu as [Hu Hn]. apply negb_true_iff, memb_not_In in Hn.
    apply Hl in Hu as [H1 H2]. exists u. repeat split; auto. now apply is_edge_sym.
  - intros (u & -> & Hn & H1 & H2). exists u. split; auto. apply filter_In. split.
    + apply Hl. split; auto. now apply is_edge_sym.
    + apply negb_true_iff, memb_not_In. auto.
Qed.

Lemma detours_deep t internal x y depth : Forall (fun v => v < gn g) t -> In x t -> In y t ->
  fitsL internal -> (2 < depth)%Z ->
  exists cs, cands_deep g p t internal x y depth = Ok cs /\ detours g p t internal x y depth cs.
Proof.
  intros Hf Hx Hy Hi Hdep. rewrite Forall_forall in Hf.
  assert (Hxr : x < gn g) by auto. assert (Hyr : y < gn g) by auto.
  unfold cands_deep. unfold num_vertices.
  destruct (mark_tour (gn g) t) as (m0 & E0 & Hl0 & Ht0 & Hf0); [now apply Forall_forall|].
  rewrite E0. cbn [bind].
  destruct (bfs_ok g m0 x Hg Hl0 Hxr (repeat 0 (gn g)) (depth - 1)) as (m1 & par & E1 & Hpost);
    [apply repeat_length|auto|].
  rewrite E1. cbn [bind]. rewrite adjacent_ok by auto. cbn [bind].
  assert (Hfree : forall v, v < gn g -> (is_false_at m0 v <-> ~ In v t)).
  { intros v Hv. split; [|now apply Hf0]. intros H1 H2. apply Ht0 in H2.
    unfold is_true_at, is_false_at in *. congruence. }
  pose (sound := fun path => exists w v, path = w ++ [y] /\ shortest_outside g t x v w /\
        ~ In v t /\ is_edge g v y /\ (Z.of_nat (length w - 1) <= depth - 1)%Z).
  pose (compl := fun (done : list nat) (acc : list (list nat)) => forall v, In v done -> ~ In v t -> is_true_at m1 v ->
        exists w, shortest_outside g t x v w /\
          (In (w ++ [y]) acc \/ ~ increases_prize p internal (w ++ [y]))).
  destruct (foldM_inv (fun acc v =>
           if memb v t then Ok acc
           else
             do mv <- vget m1 v;
             if mv : bool then
               do path <- path_in_tree_from_parents par v;
               let path_ij := path ++ [y] in
               do ep <- total_prize p path_ij;
               do ip <- total_prize p internal;
               Ok (if (ip <? ep)%Z then acc ++ [path_ij] else acc)
             else Ok acc)
    (fun done acc => (forall path, In path acc -> sound path) /\ compl done acc) (nbrs g y) [])
    as (cs & E & Hs & Hcm).
  - split; [intros path []|intros v []].
  - intros done v rest acc En [Hsnd Hcmp].
    assert (Hskip : (In v t \/ ~ is_true_at m1 v) -> compl (done ++ [v]) acc).
    { intros Hor v' Hv' Hnt Hm. apply in_app_iff in Hv' as [Hv'|[<-|[]]]; [now apply Hcmp|].
      destruct Hor; contradiction. }
    destruct (memb v t) eqn:Ev.
    { exists acc. split; auto. split; auto. apply Hskip. left. now apply memb_In. }
    apply memb_not_In in Ev.
    assert (Hyv : is_edge g y v).
    { apply nbrs_In. rewrite En. apply in_app_iff; simpl; auto. }
    pose proof (is_edge_range g y v Hg Hyv) as [_ Hvr].
    destruct Hpost as (Hlm & Hpost').
    destruct (vget_ok m1 v) as (b & Eb & Enb); [lia|]. rewrite Eb. cbn [bind].
    destruct b.
    2:{ exists acc. split; auto. split; auto. apply Hskip. right. unfold is_true_at. congruence. }
    assert (Hnew : new m0 x m1 v) by (right; split; [exact Enb|apply Hf0; auto]).
    destruct (path_in_tree_ok g m0 x Hl0 Hxr (depth - 1) m1 par (conj Hlm Hpost') v Hnew)
      as (pre & Ep & Hw & Hnd & Hhd & Hok & Hdist & Hlim & Hrange).
    rewrite Ep. cbn [bind]. rewrite Z.max_l in Hlim by lia.
    assert (Hso : shortest_outside g t x v (pre ++ [v])).
    { split; [auto|]. split; [auto|]. split.
      - split; [auto|]. split; [now rewrite last_last|]. intros u Hu. apply Hfree; [|now apply Hok].
        rewrite Forall_forall in Hrange. apply Hrange. destruct (pre ++ [v]); [destruct Hu|now right].
      - rewrite app_length. cbn [length]. rewrite Nat.add_sub.
        eapply dist_iff; [exact Hg|exact Hfree|exact Hdist]. }
    assert (Hgc : good_cand g t x y ((pre ++ [v]) ++ [y])).
    { destruct pre as [|a pre].
      - simpl in Hhd. inversion Hhd; subst. contradiction.
      - simpl in Hhd. inversion Hhd; subst a. cbn [app tl] in *.
        exists (pre ++ [v]). split; [reflexivity|].
        split; [destruct pre; discriminate|].
        inversion Hnd as [|? ? Hnx Hnd']; subst. split; [auto|].
        split.
        { intros w Hw' Hin. specialize (Hok w Hw'). specialize (Ht0 w Hin).
          unfold is_true_at, is_false_at in *. congruence. }
        split.
        + change (is_walk g ((x :: pre ++ [v]) ++ [y])).
          replace ((x :: pre ++ [v]) ++ [y]) with ((x :: pre) ++ v :: [y])
            by (simpl; rewrite <- app_assoc; reflexivity).
          apply is_walk_join; auto. constructor; [now apply is_edge_sym|constructor].
        + change (Forall (fun v => v < gn g) ((x :: pre ++ [v]) ++ [y])).
          apply Forall_app. split; [exact Hrange|repeat constructor; auto]. }
    destruct (fits_total_prize g c p C P Hc Hp HC HP HLC HLP _ (good_cand_fits g t x y _ Hx Hgc)) as (ep & Eep & Hep).
    destruct (fits_total_prize g c p C P Hc Hp HC HP HLC HLP _ Hi) as (ip & Eip & Hip).
    rewrite Eep. cbn [bind]. rewrite Eip. cbn [bind].
    eexists; split; [reflexivity|]. destruct (Z.ltb_spec ip ep) as [Hlt|Hge].
    + split.
      * intros path Hin. apply in_app_iff in Hin as [Hin|[<-|[]]]; [auto|].
        exists (pre ++ [v]), v. split; [auto|]. split; [auto|]. split; [auto|]. split; [now apply is_edge_sym|].
        rewrite app_length. cbn [length]. lia.
      * intros v' Hv' Hnt Hm. apply in_app_iff in Hv' as [Hv'|[<-|[]]].
        -- destruct (Hcmp v' Hv' Hnt Hm) as (w & H1 & H2). exists w. split; auto.
           destruct H2; auto. left. apply in_app_iff; auto.
        -- exists (pre ++ [v]). split; auto. left. apply in_app_iff. right. now left.
    + split; auto. intros v' Hv' Hnt Hm. apply in_app_iff in Hv' as [Hv'|[<-|[]]]; [now apply Hcmp|].
      exists (pre ++ [v]). split; auto. right. intros (ip' & ep' & H1 & H2 & H3).
      assert (ip' = ip) by (eapply prize_sum_fun; eauto). assert (ep' = ep) by (eapply prize_sum_fun; eauto). lia.
  - exists cs. split; [exact E|]. split; [lia|]. split; [lia|]. intros _. split; [exact Hs|].
    intros v d Hnt He Hwi Hd. apply Hcm; auto.
    + apply nbrs_In. now apply is_edge_sym.
    + destruct Hpost as (_ & _ & Hm & _). apply Hm. right. right. exists d. split; [lia|].
      eapply within_iff; [exact Hg| |exact Hwi]. exact Hfree.
Qed.

Lemma at_exact t k step depth i : closed_tour g r 1 t -> length t = S k ->
  1 <= step -> step < k -> i < k ->
  exists o, find_extension_path_at g t c p r step depth i = Ok o /\ option_at g c p t step depth i o.
Proof.
  intros Ht Hl Hs1 Hsk Hi.
  destruct (at_ok g c p r C P Hg Hmax Hc Hp HC HP HLC HLP t k step depth i Ht Hl Hs1 Hsk Hi) as (o & Eo & Ho).
  exists o. split; [exact Eo|].
  destruct (le_lt_dec (i + step) k) as [Hle|Hgt].
  2:{ left. split; [lia|]. destruct o as [[l path]|]; auto. destruct Ho. lia. }
  right. clear Ho.
  destruct (closed_len g r 1 t Ht) as (k' & Hl' & Hm & Hkn & Hk & H0).
  assert (k' = k) by lia. subst k'.
  assert (Hrange : Forall (fun v => v < gn g) t) by (destruct Ht as (vs & ? & ? & ? & ? & ?); auto).
  unfold find_extension_path_at in Eo. rewrite Hl in Eo. replace (S k - 1) with k in Eo by lia.
  set (j := (i + step) mod k) in *.
  assert (Hj : j < k) by (apply Nat.mod_upper_bound; lia).
  destruct (nth_error t i) as [vi|] eqn:Evi; [|apply nth_error_None in Evi; lia].
  destruct (nth_error t j) as [vj|] eqn:Evj; [|apply nth_error_None in Evj; lia].
  rewrite (it_get_some _ _ _ Evi), (it_get_some _ _ _ Evj) in Eo. cbn [bind] in Eo.
  assert (Hvi : In vi t) by (eapply nth_error_In; eauto).
  assert (Hvj : In vj t) by (eapply nth_error_In; eauto).
  assert (Hvir : vi < gn g) by (rewrite Forall_forall in Hrange; auto).
  assert (Hvjr : vj < gn g) by (rewrite Forall_forall in Hrange; auto).
  destruct (get_subpath_ok t k i j Hl ltac:(lia) ltac:(congruence) Hi Hj) as (w & Ew & Hlw & Hnw).
  assert (Hstep : (j + k - i) mod k = step).
  { unfold j. destruct (le_lt_dec k (i + step)) as [H|H].
    - rewrite (mod_sub_wrap (i + step)) by lia. rewrite Nat.mod_small by lia. lia.
    - rewrite (Nat.mod_small (i + step)) by lia. rewrite (mod_sub_wrap _) by lia. lia. }
  rewrite Hstep in Hlw. rewrite Ew in Eo. cbn [bind] in Eo.
  destruct (subpath_walk g r 1 t k i w Ht Hl Hi Hnw) as [Hww Hwf].
  assert (Hwfits : fitsL w) by (split; [auto|split; [auto|lia]]).
  destruct (split2 t i (i + step) ltac:(lia) ltac:(lia)) as (A & x & M & y & B & Et & HA & HM).
  replace (i + step - i) with step in HM by lia.
  assert (Hseg : forall q, q <= step -> nth_error (x :: M ++ [y]) q = nth_error t (i + q)).
  { intros q Hq. rewrite Et, nth_error_app2 by lia. rewrite HA.
    replace (i + q - i) with q by lia.
    replace (x :: M ++ y :: B) with ((x :: M ++ [y]) ++ B)
      by (cbn [app]; rewrite <- app_assoc; reflexivity).
    rewrite nth_error_app1; auto. cbn [length]. rewrite app_length. simpl. lia. }
  assert (Emod : forall q, q <= step -> nth_error t ((i + q) mod k) = nth_error t (i + q)).
  { intros q Hq. destruct (Nat.eq_dec (i + q) k) as [E|E].
    - rewrite E, Nat.mod_same by lia. congruence.
    - rewrite Nat.mod_small by lia. auto. }
  assert (Ewseg : w = x :: M ++ [y]).
  { apply nth_error_ext'.
    - cbn [length]. rewrite app_length. simpl. lia.
    - intros q Hq. rewrite Hnw by auto. rewrite Hseg by lia. apply Emod. lia. }
  assert (vi = x).
  { specialize (Hseg 0 ltac:(lia)). rewrite Nat.add_0_r in Hseg. simpl in Hseg. congruence. }
  assert (vj = y).
  { specialize (Hseg step ltac:(lia)). rewrite <- Emod in Hseg by lia. fold j in Hseg.
    rewrite Evj in Hseg. replace step with (S (length M)) in Hseg by lia.
    cbn [nth_error] in Hseg. rewrite nth_error_app2, Nat.sub_diag in Hseg by lia.
    simpl in Hseg. congruence. }
  subst vi vj. rewrite Ewseg in *. rewrite is_internal_ok in Eo. cbn [bind] in Eo.
  assert (Hroot : memb r M = false).
  { apply memb_not_In. intros Hin. apply In_nth_error in Hin as [q Hq].
    pose proof (nth_error_Some_lt _ _ _ Hq) as Hql.
    apply (closed_root_pos g r 1 t (i + S q) k Ht Hl); try lia.
    rewrite <- Hseg by lia. cbn [nth_error]. rewrite nth_error_app1 by lia. exact Hq. }
  rewrite Hroot, andb_false_r in Eo. cbn [negb] in Eo. rewrite andb_true_r in Eo.
  assert (Hcands : exists cands,
     (if (depth =? 2)%Z then cands_depth2 g t x y
      else if (2 <? depth)%Z then cands_deep g p t (x :: M ++ [y]) x y depth else Ok []) = Ok cands
     /\ Forall (good_cand g t x y) cands /\ detours g p t (x :: M ++ [y]) x y depth cands).
  { destruct (Z.eqb_spec depth 2) as [->|Hne].
    - destruct (cands_depth2_ok g Hg t x y Hrange Hvir Hvjr) as (cs & E1 & H1).
      destruct (detours_two t (x :: M ++ [y]) x y Hvir Hvjr) as (cs' & E2 & H2).
      exists cs. assert (cs' = cs) by congruence. subst cs'. auto.
    - destruct (Z.ltb_spec 2 depth).
      + destruct (cands_deep_ok g c p C P Hg Hmax Hc Hp HC HP HLC HLP t (x :: M ++ [y]) x y depth) as (cs & E1 & H1); auto.
        destruct (detours_deep t (x :: M ++ [y]) x y depth) as (cs' & E2 & H2); auto.
        exists cs. assert (cs' = cs) by congruence. subst cs'. auto.
      + exists []. split; auto. split; auto. split; auto. split; lia. }
  destruct Hcands as (cands & Ec & Hgc & Hdet). rewrite Ec in Eo. cbn [bind] in Eo.
  assert (Hcf : Forall fitsL cands).
  { eapply Forall_impl; [|exact Hgc]. intros path. now apply good_cand_fits. }
  destruct (choose_ok g c p (x :: M ++ [y]) C P (S (gn g)) Hc (Hp' g p C P Hp HLC HLP) HC HP HLC HLP cands Hwfits Hcf)
    as (best & Eb & Hb).
  rewrite Eb in Eo. cbn [bind] in Eo.
  exists A, x, M, y, B, cands. repeat (split; [assumption|]).
  destruct best as [[idx loss]|].
  - destruct Hb as (cand & H1 & H2 & H3). rewrite (vget_some _ _ _ H1) in Eo. cbn [bind] in Eo.
    inversion Eo; subst o. split; [eapply nth_error_In; eauto|]. split; [exact H2|].
    intros cand' l' Hin Hl1. apply In_nth_error in Hin as [q Hq]. now apply (H3 q cand' l' Hq).
  - inversion Eo; subst o. exact Hb.
Qed.

Lemma options_ok t k step depth : closed_tour g r 1 t -> length t = S k -> 1 <= step -> step < k ->
  exists os, find_extension_paths g t c p r step depth = Ok os /\ options g c p step depth t os /\
    (forall i x path, nth_error os i = Some (Some (x, path)) ->
       i + step <= k /\ ext_at g p t step i path /\ not_nan x).
Proof.
  intros Ht Hl H1 H2.
  destruct (find_all_ok g c p r C P Hg Hmax Hc Hp HC HP HLC HLP t k step depth Ht Hl H1 H2) as (os & E & Hall).
  exists os. split; [exact E|].
  assert (HF : Forall2 (option_at g c p t step depth) (seq 0 k) os).
  { unfold find_extension_paths in E. rewrite Hl in E. replace (S k - 1) with k in E by lia.
    destruct (mapM_exists (find_extension_path_at g t c p r step depth) (option_at g c p t step depth) (seq 0 k))
      as (os' & E' & HF).
    - intros i Hi. apply in_seq in Hi. apply at_exact with (k := k); auto; lia.
    - assert (os' = os) by congruence. subst os'. exact HF. }
  assert (Hopt : options g c p step depth t os).
  { split; [rewrite <- (Forall2_length_eq _ _ _ HF), seq_length; lia|].
    intros i o Hn. destruct (Forall2_nth _ _ _ _ _ HF Hn) as (i' & Hi' & H).
    pose proof (nth_error_Some_lt _ _ _ Hi') as Hlt. rewrite seq_length in Hlt.
    assert (i' = i).
    { apply nth_error_nth with (d := 0) in Hi'. rewrite seq_nth in Hi' by auto. simpl in Hi'. auto. }
    subst i'. exact H. }
  split; [exact Hopt|]. intros i x path Hn. destruct (Hall _ _ _ Hn) as [Ha Hb]. split; auto. split; auto.
  destruct Hopt as [_ Hopt]. destruct (Hopt _ _ Hn) as [[_ Ho]|Ho]; [discriminate|].
  destruct Ho as (A & a & M & b & B & cs & Et & HA & HM & _ & _ & Hloss & _).
  assert (Hrange : Forall (fun v => v < gn g) t) by (destruct Ht as (vs & ? & ? & ? & ? & ?); auto).
  destruct Hb as (A' & a' & M' & b' & B' & int & Et' & HA' & HM' & Ep & Hne & Hnd & Hout & Hw & Hf & _).
  assert (Haa : a' = a).
  { assert (E1 : nth_error t i = Some a) by (rewrite Et, nth_error_app2, HA, Nat.sub_diag by lia; reflexivity).
    assert (E2 : nth_error t i = Some a') by (rewrite Et', nth_error_app2, HA', Nat.sub_diag by lia; reflexivity).
    congruence. }
  assert (Hat : In a t) by (rewrite Et; apply in_app_iff; right; now left).
  destruct (closed_len g r 1 t Ht) as (k' & Hl' & Hm & Hkn & Hk & H0).
  apply (loss_not_nan g c p (a :: M ++ [b]) C P (S (gn g)) Hc (Hp' g p C P Hp HLC HLP) HC HP HLC HLP path x); auto.
  - destruct Ht as (vs & _ & _ & _ & Hwt & _). split.
    + rewrite Et in Hwt. apply is_walk_app_inv in Hwt as [_ Hwt].
      replace (a :: M ++ b :: B) with ((a :: M ++ [b]) ++ B) in Hwt by (cbn [app]; rewrite <- app_assoc; reflexivity).
      now apply is_walk_app_inv in Hwt as [Hwt _].
    + split.
      * rewrite Et in Hrange. apply Forall_app in Hrange as [_ Hr'].
        replace (a :: M ++ b :: B) with ((a :: M ++ [b]) ++ B) in Hr' by (cbn [app]; rewrite <- app_assoc; reflexivity).
        now apply Forall_app in Hr' as [Hr' _].
      * assert (length t = length A + S (length M + S (length B)))
          by (rewrite Et, app_length; cbn [length]; rewrite app_length; reflexivity).
        cbn [length]. rewrite app_length. cbn [length]. lia.
  - apply good_cand_fits with (t := t) (x := a) (y := b'); auto.
    exists int. subst a'. repeat (split; [assumption|]). assumption.
Qed.

Lemma losses_feasible os : length (losses os) = num_feasible os.
Proof. unfold num_feasible. induction os as [|[[x q]|] os IH]; cbn [losses filter length]; auto. Qed.

Lemma losses_fold os : forall a, fold_left f_add (losses os) a
  = fold_left (fun acc (o : option (float32 * list nat)) => match o with Some (x, _) => f_add acc x | None => acc end) os a.
Proof. induction os as [|[[x q]|] os IH]; intros a; cbn [losses fold_left]; auto. Qed.

Lemma mean_loss_ok os : average_unitary_loss os = mean_loss os.
Proof. unfold average_unitary_loss, mean_loss. now rewrite losses_fold, losses_feasible. Qed.

Lemma least_ok t k step os : closed_tour g r 1 t -> length t = S k ->
  (forall i x path, nth_error os i = Some (Some (x, path)) -> i + step <= k /\ ext_at g p t step i path /\ not_nan x) ->
  match index_of_smallest_loss os with
  | None => forall o, In o os -> o = None
  | Some (i, (x, path)) => least os i x path
  end.
Proof.
  intros _ _ H. apply index_of_smallest_loss_spec. intros y pb Hin. apply In_nth_error in Hin as [i Hi].
  now apply (H i y pb).
Qed.

Lemma replaced_ok t k step i path : closed_tour g r 1 t -> length t = S k -> step < k -> ext_at g p t step i path ->
  swap_paths_in_tour t path i (i + step) = Ok (replaced t step i path) /\
  swap_paths_in_tour t path i ((i + step) mod k) = Ok (replaced t step i path) /\
  closed_tour g r 2 (replaced t step i path) /\
  length (replaced t step i path) + step = length t + (length path - 1).
Proof.
  intros Ht Hl Hk Hx.
  destruct (ext_replace g p r C P HLC HLP t k step i path Ht Hl Hk Hx) as (t' & E1 & E2 & H3 & _).
  destruct Hx as (A & x & M & y & B & int & E & HA & HM & Ep & _).
  assert (Et' : t' = replaced t step i path).
  { assert (Es : swap_paths_in_tour t path i (i + step) = Ok (A ++ path ++ B)).
    { rewrite E. subst i step. apply swap_forward. }
    rewrite E1 in Es. inversion Es. unfold replaced. f_equal; [|f_equal].
    - rewrite E, <- HA. rewrite firstn_app, Nat.sub_diag, firstn_all. cbn [firstn]. now rewrite app_nil_r.
    - rewrite E. replace (A ++ x :: M ++ y :: B) with ((A ++ x :: M ++ [y]) ++ B)
        by (rewrite <- app_assoc; cbn [app]; rewrite <- app_assoc; reflexivity).
      replace (S (i + step)) with (length (A ++ x :: M ++ [y]))
        by (rewrite app_length; cbn [length]; rewrite app_length; cbn [length]; lia).
      rewrite skipn_app, Nat.sub_diag, skipn_all. reflexivity. }
  rewrite <- Et'. split; [auto|]. split; [auto|]. split; [auto|].
  assert (Es : swap_paths_in_tour t path i (i + step) = Ok (A ++ path ++ B)).
  { rewrite E. subst i step. apply swap_forward. }
  rewrite E1 in Es. inversion Es as [Et]. rewrite E, Ep, !app_length. cbn [length].
  repeat (rewrite ?app_length; cbn [length]). lia.
Qed.

(** the rounds after the first *)
Lemma loop_rounds step depth a : (1 <= step <= int_max)%Z ->
  let ok x := f_lt x a = true in
  forall rem t, closed_tour g r 1 t ->
  exists t' k, path_extension_loop rem false (Some a) g t c p r step depth = Ok t' /\
    replacements g c p (Z.to_nat step) depth ok k t t' /\ k <= rem /\ closed_tour g r 1 t' /\
    (k = rem \/ finished g c p (Z.to_nat step) depth ok t').
Proof.
  intros Hs ok. induction rem as [|rem IH]; intros t Ht; cbn [path_extension_loop].
  - exists t, 0. split; auto. split; [constructor|]. auto.
  - destruct (closed_len g r 1 t Ht) as (k & Hl & _ & Hkn & _ & _).
    destruct (step_lt_size step (length t)) eqn:El.
    2:{ exists t, 0. split; auto. split; [constructor|]. split; [lia|]. split; auto. right. left.
        destruct (le_lt_dec (length t - 1) (Z.to_nat step)); auto.
        rewrite (step_lt_size_complete g C P Hmax HLC HLP step t k Hl Hkn ltac:(lia) ltac:(lia)) in El. discriminate. }
    destruct (step_lt_size_spec g C P Hmax HLC HLP step t k Hl Hkn ltac:(unfold int_min; lia) ltac:(lia) El) as [Hs1 Hsk].
    destruct t as [|t0 tt] eqn:Ett; [simpl in Hl; lia|]. rewrite <- Ett in *. clear Ett t0 tt.
    destruct (options_ok t k (Z.to_nat step) depth Ht Hl ltac:(lia) Hsk) as (os & E & Hopt & Hall).
    rewrite E. cbn [bind]. pose proof (least_ok t k _ os Ht Hl Hall) as Hleast.
    destruct (index_of_smallest_loss os) as [[idx [loss path]]|] eqn:Ei.
    2:{ exists t, 0. split; auto. split; [constructor|]. split; [lia|]. split; auto. right. right. exists os. auto. }
    rewrite andb_false_r, orb_false_l.
    destruct (f_lt loss a) eqn:Ea.
    + destruct (Hall idx loss path) as (_ & Hext & _); [apply Hleast|].
      destruct (replaced_ok t k _ idx path Ht Hl Hsk Hext) as (Sw & _ & Hc2 & _).
      rewrite Sw. cbn [bind].
      destruct (IH _ (closed_weaken g r 2 1 _ ltac:(lia) Hc2)) as (t' & k' & E' & Hrep & Hk' & Hc' & Hfin).
      exists t', (S k'). split; [exact E'|]. split; [|split; [lia|split; [auto|destruct Hfin; [left; lia|auto]]]].
      econstructor; eauto. lia.
    + exists t, 0. split; auto. split; [constructor|]. split; [lia|]. split; auto. right. right.
      exists os. split; auto. right. exists idx, loss, path. split; auto. unfold ok. congruence.
Qed.

Lemma path_extension_rounds step depth t : closed_tour g r 1 t ->
  (1 <= step <= int_max)%Z -> (step < Z.of_nat (length t) - 1)%Z ->
  exists t', path_extension g t c p r step depth = Ok t' /\
  exists os, options g c p (Z.to_nat step) depth t os /\
    let a := mean_loss os in
    let ok x := f_lt x a = true in
    (((forall o, In o os -> o = None) /\ t' = t) \/
     exists i x path, least os i x path /\
       ((length (losses os) <> 1 /\ ~ ok x /\ t' = t) \/
        (length (losses os) = 1 \/ ok x) /\
        exists k, replacements g c p (Z.to_nat step) depth ok k (replaced t (Z.to_nat step) i path) t' /\
          S k <= gn g /\ (S k = gn g \/ finished g c p (Z.to_nat step) depth ok t'))).
Proof.
  intros Ht Hs Hlt. unfold path_extension, num_vertices.
  destruct (closed_len g r 1 t Ht) as (k & Hl & Hk1 & Hkn & _ & _).
  assert (En : exists n, gn g = S n) by (exists (gn g - 1); lia). destruct En as [n En].
  replace (path_extension_loop (gn g)) with (path_extension_loop (S n)) by now rewrite En.
  cbn [path_extension_loop].
  assert (Hsk : Z.to_nat step < k) by lia.
  rewrite (step_lt_size_complete g C P Hmax HLC HLP step t k Hl Hkn ltac:(lia) Hsk).
  destruct t as [|t0 tt] eqn:Ett; [simpl in Hl; lia|]. rewrite <- Ett in *. clear Ett t0 tt.
  destruct (options_ok t k (Z.to_nat step) depth Ht Hl ltac:(lia) Hsk) as (os & E & Hopt & Hall).
  rewrite E. cbn [bind]. pose proof (least_ok t k _ os Ht Hl Hall) as Hleast.
  destruct (index_of_smallest_loss os) as [[idx [loss path]]|] eqn:Ei.
  2:{ exists t. split; auto. exists os. split; auto. }
  rewrite mean_loss_ok, andb_true_r, <- losses_feasible.
  destruct (Hall idx loss path) as (_ & Hext & _); [apply Hleast|].
  destruct (replaced_ok t k _ idx path Ht Hl Hsk Hext) as (Sw & _ & Hc2 & _).
  destruct (Nat.eqb (length (losses os)) 1 || f_lt loss (mean_loss os)) eqn:Eb.
  - rewrite Sw. cbn [bind].
    destruct (loop_rounds step depth (mean_loss os) Hs n _ (closed_weaken g r 2 1 _ ltac:(lia) Hc2))
      as (t' & k' & E' & Hrep & Hk' & Hc' & Hfin).
    exists t'. split; [exact E'|]. exists os. split; [exact Hopt|]. right. exists idx, loss, path. split; [exact Hleast|].
    right. split.
    + apply orb_true_iff in Eb as [Eb|Eb]; [left; now apply Nat.eqb_eq|now right].
    + exists k'. split; [exact Hrep|]. split; [lia|]. destruct Hfin; [left; lia|now right].
  - exists t. split; [reflexivity|]. exists os. split; [exact Hopt|]. right. exists idx, loss, path. split; [exact Hleast|].
    left. apply orb_false_iff in Eb as [E1 E2]. split; [now apply Nat.eqb_neq|]. split; [congruence|reflexivity].
Qed.

Lemma until_rounds step depth prize quota : (1 <= step <= int_max)%Z -> (prize < quota)%Z ->
  forall rem t, closed_tour g r 1 t ->
  exists t' k, path_extension_until_loop rem g t c p r prize quota step depth = Ok t' /\
    replacements g c p (Z.to_nat step) depth (fun _ => True) k t t' /\ k <= rem /\
    (k = rem \/ finished g c p (Z.to_nat step) depth (fun _ => True) t').
Proof.
  intros Hs Hq. apply Z.ltb_lt in Hq. induction rem as [|rem IH]; intros t Ht; cbn [path_extension_until_loop]; rewrite Hq.
  - exists t, 0. split; [destruct (step_lt_size step (length t)); auto|]. split; [constructor|]. auto.
  - destruct (closed_len g r 1 t Ht) as (k & Hl & _ & Hkn & _ & _).
    destruct (step_lt_size step (length t)) eqn:El.
    2:{ exists t, 0. split; auto. split; [constructor|]. split; [lia|]. right. left.
        destruct (le_lt_dec (length t - 1) (Z.to_nat step)); auto.
        rewrite (step_lt_size_complete g C P Hmax HLC HLP step t k Hl Hkn ltac:(lia) ltac:(lia)) in El. discriminate. }
    destruct (step_lt_size_spec g C P Hmax HLC HLP step t k Hl Hkn ltac:(unfold int_min; lia) ltac:(lia) El) as [Hs1 Hsk].
    destruct t as [|t0 tt] eqn:Ett; [simpl in Hl; lia|]. rewrite <- Ett in *. clear Ett t0 tt.
    destruct (options_ok t k (Z.to_nat step) depth Ht Hl ltac:(lia) Hsk) as (os & E & Hopt & Hall).
    rewrite E. cbn [bind]. pose proof (least_ok t k _ os Ht Hl Hall) as Hleast.
    destruct (index_of_smallest_loss os) as [[idx [loss path]]|] eqn:Ei.
    2:{ exists t, 0. split; auto. split; [constructor|]. split; [lia|]. right. right. exists os. auto. }
    destruct (Hall idx loss path) as (_ & Hext & _); [apply Hleast|].
    destruct (replaced_ok t k _ idx path Ht Hl Hsk Hext) as (_ & Sw & Hc2 & _).
    rewrite Hl. replace (S k - 1) with k by lia. rewrite Sw. cbn [bind].
    destruct (IH _ (closed_weaken g r 2 1 _ ltac:(lia) Hc2)) as (t' & k' & E' & Hrep & Hk' & Hfin).
    exists t', (S k'). split; [exact E'|]. split; [|split; [lia|destruct Hfin; [left; lia|auto]]].
    econstructor; eauto. lia.
Qed.

Lemma path_extension_until_rounds step depth quota z t : closed_tour g r 1 t -> tour_prize p t z -> (z < quota)%Z ->
  (1 <= step <= int_max)%Z ->
  exists t' k, path_extension_until g t c p r quota step depth = Ok t' /\
    replacements g c p (Z.to_nat step) depth (fun _ => True) k t t' /\ k <= gn g /\
    (k = gn g \/ finished g c p (Z.to_nat step) depth (fun _ => True) t').
Proof.
  intros Ht Hz Hq Hs. unfold path_extension_until.
  destruct (closed_len g r 1 t Ht) as (k & Hl & Hk1 & Hkn & _ & _).
  pose proof (Hp' g p C P Hp HLC HLP) as [Hpl Hpf].
  destruct (total_prize_of_tour_ok p P t Hpf) as (z' & E & Hz'); auto.
  - destruct Ht as (vs & ? & ? & ? & ? & ?). now rewrite Hpl.
  - intros ->. simpl in Hl. lia.
  - rewrite Hl. assert (Z.of_nat (S k) * P <= Z.of_nat (S (gn g)) * P)%Z
      by (apply Z.mul_le_mono_nonneg_r; lia).
    assert (0 <= Z.of_nat (S k) * P)%Z by (apply Z.mul_nonneg_nonneg; lia). lia.
  - rewrite E. cbn [bind]. assert (z' = z) by (eapply prize_sum_fun; eauto). subst z'.
    exact (until_rounds step depth z quota Hs Hq (gn g) t Ht).
Qed.

(** with step size 1 every replacement makes the tour longer, so the counter never runs out *)
Lemma replacements_length depth ok k t t' : closed_tour g r 1 t ->
  replacements g c p 1 depth ok k t t' -> closed_tour g r 1 t' /\ length t + k <= length t'.
Proof.
  intros Ht H. revert Ht. remember 1 as step eqn:Es.
  induction H as [t|k t t' os i x path Hlt Hopt Hleast Hok Hrep IH]; intros Ht; [split; auto; lia|]. subst step.
  destruct (closed_len g r 1 t Ht) as (k' & Hl & Hk1 & Hkn & _ & _).
  destruct Hopt as [_ Hopt]. destruct Hleast as [Hn _].
  destruct (Hopt _ _ Hn) as [[_ Ho]|Ho]; [discriminate|].
  destruct Ho as (A & a & M & b & B & cs & Et & HA & HM & Hdet & Hin & Hloss & _).
  destruct M; [|simpl in HM; lia]. cbn [app] in *.
  assert (Hrange : Forall (fun v => v < gn g) t) by (destruct Ht as (vs & ? & ? & ? & ? & ?); auto).
  assert (Hx : ext_at g p t 1 i path).
  { exists A, a, [], b, B. cbn [app length].
    assert (Hsh : exists int, path = a :: int ++ [b] /\ int <> [] /\ NoDup int /\
      (forall v, In v int -> ~ In v t) /\ is_walk g path).
    { destruct Hdet as (D1 & D2 & D3). destruct (Z.lt_trichotomy depth 2) as [H|[H|H]].
      - rewrite (D1 H) in Hin. destruct Hin.
      - apply (D2 H) in Hin as (u & -> & Hu & H1 & H2). exists [u]. cbn [app].
        repeat split; auto; try discriminate; [repeat constructor; simpl; tauto|intros v [->|[]]; auto|].
        repeat constructor; auto.
      - destruct (D3 H) as [D _]. destruct (D _ Hin) as (w & v & -> & (W1 & W2 & (W3 & W4 & W5) & _) & Hv & He & _).
        destruct w as [|a' w]; [discriminate|]. cbn in W3. inversion W3; subst a'. cbn [tl] in W5.
        destruct w as [|b' w] using rev_ind.
        { cbn in W4. subst v. exfalso. apply Hv. rewrite Et. apply in_app_iff. right. now left. }
        clear IHw. rewrite app_comm_cons, last_last in W4. subst b'. exists (w ++ [v]). split; [reflexivity|].
        split; [destruct w; discriminate|]. split; [now inversion W2|]. split; [exact W5|].
        replace ((a :: w ++ [v]) ++ [b]) with ((a :: w) ++ v :: [b]) by (simpl; rewrite <- app_assoc; reflexivity).
        apply is_walk_join; auto. constructor; [auto|constructor]. }
    destruct Hsh as (int & Ep & H1 & H2 & H3 & H4). exists int. repeat (split; [assumption|]).
    split; [|eapply loss_of_increases; exact Hloss].
    destruct int as [|u int]; [congruence|]. 
    assert (Hlen2 : 2 <= length path) by (rewrite Ep; cbn [length]; rewrite app_length; cbn [length]; lia).
    apply (walk_range_len g path Hg H4 Hlen2). }
  destruct (replaced_ok t k' 1 i path Ht Hl ltac:(lia) Hx) as (_ & _ & Hc2 & Hlen).
  destruct (IH (closed_weaken g r 2 1 _ ltac:(lia) Hc2)) as [H1 H2]. split; auto.
  destruct Hx as (A' & a' & M' & b' & B' & int & _ & _ & _ & Ep & Hne & _).
  assert (3 <= length path).
  { rewrite Ep. cbn [length]. rewrite app_length. cbn [length]. destruct int; [congruence|cbn [length]; lia]. }
  lia.
Qed.

Lemma replacements_bound depth ok k t t' : closed_tour g r 1 t ->
  replacements g c p 1 depth ok k t t' -> closed_tour g r 1 t' /\ length t + k <= length t' <= S (gn g).
Proof.
  intros Ht H. destruct (replacements_length depth ok k t t' Ht H) as [H1 H2]. split; auto. split; auto.
  destruct (closed_len g r 1 t' H1) as (k' & Hl & _ & Hkn & _). lia.
Qed.

Lemma path_extension_too_long step depth t : closed_tour g r 1 t -> (int_min <= step <= int_max)%Z ->
  (step < 0 \/ Z.of_nat (length t) - 1 <= step)%Z -> path_extension g t c p r step depth = Ok t.
Proof.
  intros Ht Hs H. unfold path_extension.
  destruct (closed_len g r 1 t Ht) as (k & Hl & Hk1 & Hkn & _ & _).
  destruct (num_vertices g); [reflexivity|]. cbn [path_extension_loop].
  destruct (step_lt_size step (length t)) eqn:El; [|reflexivity].
  destruct (step_lt_size_spec g C P Hmax HLC HLP step t k Hl Hkn Hs ltac:(lia) El). lia.
Qed.
End Rounds.
