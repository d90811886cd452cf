(** * P_CostCover: lemmas for C15 and C34 *)
From Verif Require Import Base Graph Spec Spec_Cycle M_Walk M_Graph M_Solution M_Dijkstra M_ILP M_CostCover
  Spec_ILP Spec_Cover.
From Verif Require Import P_Base P_Walk P_BFS P_Dijkstra P_Collapse P_ILP P_Model P_Cuts.
Open Scope nat_scope.

(** ** separated vertices *)
Definition over (dist : list Z) (ub : Z) (v : nat) : bool :=
  match nth_error dist v with Some d => (ub <? d)%Z | None => false end.

Lemma over_spec dist ub v : over dist ub v = true <-> exists d, nth_error dist v = Some d /\ (ub < d)%Z.
Proof.
  unfold over. destruct (nth_error dist v) as [d|]; split.
  - intros H. apply Z.ltb_lt in H. eauto.
  - intros (d' & E & H). inversion E; subst. now apply Z.ltb_lt.
  - discriminate.
  - intros (d' & E & _). discriminate.
Qed.

Lemma separate_paths_ok g dist ub : length dist = gn g ->
  separate_cost_cover_paths g dist ub = Ok (filter (over dist ub) (seq 0 (gn g))).
Proof.
  intros Hl. unfold separate_cost_cover_paths, vertices.
  destruct (foldM_inv (fun acc v => do d <- vget dist v; Ok (if (ub <? d)%Z then acc ++ [v] else acc))
    (fun done acc => acc = filter (over dist ub) done) (seq 0 (gn g)) []) as (r & E & ->); auto.
  intros done v rest acc Hs ->.
  assert (Hv : v < length dist).
  { rewrite Hl. assert (In v (seq 0 (gn g))) by (rewrite Hs, in_app_iff; simpl; auto). apply in_seq in H. lia. }
  destruct (vget_ok dist v Hv) as (d & Ed & En). rewrite Ed. cbn [bind]. eexists. split; [reflexivity|].
  rewrite filter_app. cbn [filter]. replace (over dist ub v) with (ub <? d)%Z by (unfold over; now rewrite En).
  destruct (ub <? d)%Z; auto. now rewrite app_nil_r.
Qed.

Lemma separate_paths_short g dist ub : length dist < gn g ->
  separate_cost_cover_paths g dist ub = UB VecOOB.
Proof.
  intros Hl. unfold separate_cost_cover_paths, vertices.
  replace (gn g) with (length dist + S (gn g - length dist - 1)) by lia.
  rewrite seq_app, foldM_app.
  destruct (foldM_inv (fun acc v => do d <- vget dist v; Ok (if (ub <? d)%Z then acc ++ [v] else acc))
    (fun done (acc : list nat) => True) (seq 0 (length dist)) []) as (r & E & _); auto.
  { intros done v rest acc Hs _.
    assert (Hv : v < length dist).
    { assert (In v (seq 0 (length dist))) by (rewrite Hs, in_app_iff; simpl; auto). apply in_seq in H. lia. }
    destruct (vget_ok dist v Hv) as (d & Ed & En). rewrite Ed. cbn [bind]. eauto. }
  rewrite E. cbn [bind seq foldM plus]. unfold vget at 1.
  destruct (nth_error dist (length dist)) eqn:En; [|reflexivity].
  apply nth_error_Some_lt in En. lia.
Qed.

(** ** the inequality *)
Definition cover_row (rl vl : nat) : lin := mkLin [(rl, 1%Z); (vl, 1%Z)] None (Some 1%Z).

Lemma cover_from_ok g root v : all_loops g -> root < gn g -> v < gn g ->
  exists rl vl, cover_inequality_from_vertices g (var_map g) [root; v] = Ok (cover_row rl vl) /\
    joins g rl root root /\ joins g vl v v.
Proof.
  intros Hl Hr Hv. unfold cover_inequality_from_vertices.
  destruct (self_loops_ok g [root; v]) as (ls & E & HF).
  { repeat constructor; auto. }
  { intros u [<-|[<-|[]]]; auto. }
  rewrite E. cbn [bind].
  inversion HF as [|a rl ? l1 H1 HF1]; subst. inversion HF1 as [|a vl ? l2 H2 HF2]; subst. inversion HF2; subst.
  rewrite edge_variables_ok.
  - cbn [bind]. exists rl, vl. split; [reflexivity|]. split; [exact (proj1 H1)|exact (proj1 H2)].
  - repeat constructor; eapply joins_lt; [apply H1|apply H2].
Qed.

Lemma cover_row_sat g root v rl vl t s : joins g rl root root -> joins g vl v v ->
  In root t -> incidence g t s -> (row_sat s (cover_row rl vl) <-> ~ In v t).
Proof.
  intros Hr Hv Hin Hi. pose proof Hi as [[HD _] _]. unfold row_sat, cover_row. cbn [l_lhs l_rhs l_terms lin_value].
  rewrite (incidence_loop g t s root rl Hi Hr), (incidence_loop g t s v vl Hi Hv).
  rewrite (proj2 (memb_In root t) Hin).
  destruct (memb v t) eqn:E.
  - apply memb_In in E. split; [|tauto]. intros [_ H]. specialize (H 1%Z eq_refl). lia.
  - apply memb_not_In in E. split; [auto|]. intros _. split; [discriminate|].
    intros b Hb. inversion Hb; subst. lia.
Qed.

(** the rows for a list of vertices *)
Definition rows_for (g : graph) (root : nat) (vs : list nat) (rows : list lin) : Prop :=
  Forall2 (fun v row => exists rl vl, row = cover_row rl vl /\ joins g rl root root /\ joins g vl v v) vs rows.

Lemma umod_small z : (0 <= z < 2 ^ 32)%Z -> umod z = z.
Proof. intros H. unfold umod. now apply Z.mod_small. Qed.

Lemma umod_add a b : umod (umod a + b) = umod (a + b).
Proof. unfold umod. now rewrite Zplus_mod_idemp_l. Qed.

Lemma umod_add_r a b : umod (a + umod b) = umod (a + b).
Proof. unfold umod. now rewrite Zplus_mod_idemp_r. Qed.

Lemma separate_then_add_ok g root dist ub : all_loops g -> root < gn g -> length dist = gn g ->
  exists rows, separate_then_add g (var_map g) root dist ub
      = Ok (rows, umod (Z.of_nat (length rows))) /\
    rows_for g root (filter (over dist ub) (seq 0 (gn g))) rows.
Proof.
  intros Hl Hr Hd. unfold separate_then_add. rewrite separate_paths_ok by auto. cbn [bind].
  set (vs := filter (over dist ub) (seq 0 (gn g))).
  assert (Hvs : forall v, In v vs -> v < gn g).
  { intros v Hv. apply filter_In in Hv as [Hv _]. apply in_seq in Hv. lia. }
  destruct (foldM_inv (fun st v =>
           do row <- cover_inequality_from_vertices g (var_map g) [root; v];
           Ok (fst st ++ [row], umod (snd st + 1)))
    (fun done st => rows_for g root done (fst st) /\ snd st = umod (Z.of_nat (length (fst st)))) vs ([], 0%Z))
    as ([rows k] & E & Hrows & Hk).
  - split; [constructor|reflexivity].
  - intros done v rest [rows k] Es [H1 H2]. cbn [fst snd] in *.
    destruct (cover_from_ok g root v Hl Hr) as (rl & vl & E & J1 & J2).
    { apply Hvs. rewrite Es. apply in_app_iff; simpl; auto. }
    rewrite E. cbn [bind]. eexists. split; [reflexivity|]. cbn [fst snd]. split.
    + apply Forall2_app; auto. constructor; [eauto|constructor].
    + rewrite H2, umod_add, app_length. cbn [length]. f_equal. lia.
  - cbn [fst snd] in *. subst k. exists rows. split; auto.
Qed.

Lemma rows_for_sat g root vs rows t s : rows_for g root vs rows -> In root t -> incidence g t s ->
  (Forall (row_sat s) rows <-> forall v, In v vs -> ~ In v t).
Proof.
  intros H Hr Hi. induction H as [|v row vs rows (rl & vl & -> & J1 & J2) _ IH].
  - split; [intros _ v []|constructor].
  - split.
    + intros HF. inversion HF as [|? ? Ha Hb]; subst. intros w [<-|Hw].
      * now apply (cover_row_sat g root v rl vl t s).
      * now apply IH.
    + intros HF. constructor.
      * apply (cover_row_sat g root v rl vl t s); auto. apply HF. now left.
      * apply IH. intros w Hw. apply HF. now right.
Qed.

(** ** Dijkstra *)
Lemma any_cost_snoc g c a u v e x z : any_cost g c (a ++ [u]) z -> joins g e u v ->
  nth_error c e = Some x -> any_cost g c (a ++ [u; v]) (z + x).
Proof.
  revert z. induction a as [|b a IH]; intros z H Hj Hx.
  - cbn in *. inversion H; subst. replace (0 + x)%Z with (x + 0)%Z by lia. econstructor; eauto. constructor.
  - destruct a as [|b' a]; cbn [app] in *.
    + inversion H as [|? ? ? e' x' z' J X H']; subst. inversion H'; subst.
      replace (x' + 0 + x)%Z with (x' + (x + 0))%Z by lia. econstructor; eauto. econstructor; eauto. constructor.
    + inversion H as [|? ? ? e' x' z' J X H']; subst. rewrite <- Z.add_assoc. econstructor; eauto.
Qed.

Lemma reach_walk g c s mark v z : reach g c s mark v z -> exists w, leads s v w /\ any_cost g c w z.
Proof.
  induction 1 as [|u v e x z _ (w & [Hh Hla] & Hw) Hj Hx _].
  - exists [s]. split; [split; reflexivity|constructor].
  - destruct (exists_last (l := w)) as (a & b & ->); [intros ->; discriminate|].
    rewrite last_last in Hla. subst b. exists (a ++ [u; v]). split.
    + split; [destruct a; cbn in *; auto|]. change [u; v] with ([u] ++ [v]). rewrite app_assoc. apply last_last.
    + eapply any_cost_snoc; eauto.
Qed.

Lemma any_cost_range g c w z s : graph_ok g -> s < gn g -> hd_error w = Some s -> any_cost g c w z ->
  Forall (fun v => v < gn g) w.
Proof.
  intros Hg Hs Hh H. revert s Hs Hh. induction H as [u|u v w e x z Hj Hx Hw IH]; intros s Hs Hh.
  - inversion Hh; subst. auto.
  - inversion Hh; subst. constructor; auto. apply (IH v); auto.
    eapply (is_edge_range g _ v Hg). exists e. exact Hj.
Qed.

Lemma repeat_false_ok n v : v < n -> is_false_at (repeat false n) v.
Proof. intros H. unfold is_false_at. now apply nth_error_repeat. Qed.

Lemma distances_ok tb g c s C : good_pick tb -> graph_ok g -> costs_within g c 0 C -> (0 <= C)%Z ->
  (Z.of_nat (gn g) * C < int_max)%Z -> s < gn g ->
  exists dist, dijkstra_distances tb g c s = Ok dist /\ length dist = gn g /\
    forall v, v < gn g ->
      (exists d, nth_error dist v = Some d /\ distance g c s v d /\ (0 <= d <= Z.of_nat (gn g) * C)%Z) \/
      (nth_error dist v = Some int_max /\ forall w, is_walk g w -> ~ leads s v w).
Proof.
  intros Htb Hg Hc HC Hmax Hs. unfold dijkstra_distances.
  assert (Hm : length (repeat false (num_vertices g)) = gn g) by apply repeat_length.
  destruct (dijkstra_ok tb Htb g c s (num_vertices g) _ C Hg Hc HC Hmax Hm Hs) as ([found st] & E & dn & HI & H).
  rewrite E. cbn [bind fst snd] in *. exists (d_dist st). split; auto. pose proof (proj1 HI) as B.
  split; [apply (b_ld _ _ _ _ _ _ _ _ B)|].
  assert (Hq : found = false /\ d_queue st = []).
  { destruct found; [|tauto]. exfalso. assert (Hn : num_vertices g < gn g).
    { apply (b_range _ _ _ _ _ _ _ _ B). apply in_app_iff; auto. }
    unfold num_vertices in Hn. lia. }
  destruct Hq as [_ Hq].
  assert (Hvia : forall w z v, leads s v w -> any_cost g c w z -> reach g c s (repeat false (num_vertices g)) v z).
  { intros w z v [Hh Hla] Hw. apply (any_cost_reach g c s _ Hm Hs w z v Hw). split; auto. split; auto.
    intros x Hx. apply repeat_false_ok. unfold num_vertices.
    pose proof (any_cost_range g c w z s Hg Hs Hh Hw) as HF. rewrite Forall_forall in HF. apply HF.
    destruct w; [destruct Hx|now right]. }
  intros v Hv. destruct (in_dec Nat.eq_dec v dn) as [Hin|Hin].
  - left. destruct (b_reach _ _ _ _ _ _ _ _ B v) as (d & Ed & Hr & Hb); [apply in_app_iff; auto|].
    exists d. split; auto. split; [split|].
    + eapply reach_walk; eauto.
    + intros w z Hl Hw. eapply (done_min g c s 0); eauto.
    + split; [lia|]. pose proof (len_le g c s (repeat false (num_vertices g)) C dn None st B) as Hlen.
      nia.
  - right. split.
    + destruct (nth_error (d_col st) v) as [cl|] eqn:Ec;
        [|apply nth_error_None in Ec; rewrite (b_lc _ _ _ _ _ _ _ _ B) in Ec; lia].
      destruct cl.
      * apply (b_white _ _ _ _ _ _ _ _ B v Ec).
      * destruct (b_gray _ _ _ _ _ _ _ _ B v Ec) as [H'|H']; [rewrite Hq in H'; destruct H'|discriminate].
      * destruct (b_black _ _ _ _ _ _ _ _ B v Ec) as [H'|H']; [tauto|].
        apply nth_error_In, repeat_spec in H'. discriminate.
    + intros w Hw Hl. assert (Hne : w <> []) by (intros ->; destruct Hl; discriminate).
      destruct (any_cost_exists g c s _ C Hc Hm Hs w Hw Hne) as [z Hz].
      destruct (frontier g c s 0 _ C Hc Hm Hs dn st HI v z (Hvia w z v Hl Hz)) as [(H' & _)|(y & d & Hy & _)];
        [auto|]. rewrite Hq in Hy. destruct Hy.
Qed.

(** ** a closed tour passes twice *)
Lemma any_cost_split g c a x b z : any_cost g c (a ++ x :: b) z ->
  exists z1 z2, any_cost g c (a ++ [x]) z1 /\ any_cost g c (x :: b) z2 /\ z = (z1 + z2)%Z.
Proof.
  revert z. induction a as [|u a IH]; intros z H.
  - exists 0%Z, z. split; [constructor|]. split; auto.
  - destruct a as [|u' a]; cbn [app] in *; inversion H as [|? ? ? e y z' J X H']; subst.
    + exists (y + 0)%Z, z'. split; [econstructor; eauto; constructor|]. split; auto. lia.
    + destruct (IH z' H') as (z1 & z2 & A & B & ->). exists (y + z1)%Z, z2.
      split; [econstructor; eauto|]. split; auto. lia.
Qed.

Lemma any_cost_rev g c w z : any_cost g c w z -> any_cost g c (rev w) z.
Proof.
  induction 1 as [u|u v w e x z Hj Hx Hw IH]; [constructor|].
  cbn [rev] in *. rewrite <- app_assoc. cbn [app]. rewrite Z.add_comm.
  apply any_cost_snoc with (e := e); auto. now apply joins_sym.
Qed.

Lemma tour_twice g c root t z v d : tour_from g root t -> any_cost g c t z -> In v t ->
  (forall w y, leads root v w -> any_cost g c w y -> (d <= y)%Z) -> (2 * d <= z)%Z.
Proof.
  intros (vs & -> & _) Hz Hin Hd. apply in_split in Hin as (a & b & E). rewrite E in Hz.
  apply any_cost_split in Hz as (z1 & z2 & H1 & H2 & ->).
  assert (Ha : leads root v (a ++ [v])).
  { split; [|apply last_last]. destruct a; cbn in *; congruence. }
  assert (Hb : leads root v (rev (v :: b))).
  { split.
    - destruct (exists_last (l := v :: b)) as (b' & y & Eb); [discriminate|]. rewrite Eb in *.
      assert (y = root). { rewrite app_comm_cons, app_assoc in E. apply app_inj_tail in E. symmetry. apply E. }
      subst y. rewrite rev_app_distr. reflexivity.
    - cbn [rev]. apply last_last. }
  apply any_cost_rev in H2. specialize (Hd _ _ Ha H1) as D1. specialize (Hd _ _ Hb H2). lia.
Qed.

(** the doubled distances *)
Lemma doubled_ok tb g c cm root C : good_pick tb -> graph_ok g -> costs_within g c 0 C -> (0 <= C)%Z ->
  (2 * (Z.of_nat (gn g) * C) < int_max)%Z -> root < gn g ->
  (forall v, v < gn g -> exists w, is_walk g w /\ leads root v w) ->
  exists dist, shortest_path_distances tb g c cm root = Ok dist /\ length dist = gn g /\
    forall v, v < gn g -> exists d, nth_error dist v = Some (2 * d)%Z /\ distance g c root v d.
Proof.
  intros Htb Hg Hc HC Hmax Hr Hcon. unfold shortest_path_distances.
  assert (Hn0 : (0 <= Z.of_nat (gn g) * C)%Z) by nia.
  destruct (distances_ok tb g c root C Htb Hg Hc HC ltac:(lia) Hr) as (dist & E & Hl & Hd).
  rewrite E. cbn [bind].
  assert (Hgood : forall v, v < gn g -> exists d, nth_error dist v = Some d /\ distance g c root v d /\
     (0 <= d <= Z.of_nat (gn g) * C)%Z).
  { intros v Hv. destruct (Hd v Hv) as [H|[_ H]]; auto. destruct (Hcon v Hv) as (w & Hw & Hlw).
    destruct (H w Hw Hlw). }
  destruct (mapM_exists (fun d => chk (d * 2)) (fun d d2 => d2 = (2 * d)%Z) dist) as (r & Er & HF).
  { intros d Hin. apply In_nth_error in Hin as [v Ev]. pose proof (nth_error_Some_lt _ _ _ Ev) as Hv.
    destruct (Hgood v ltac:(lia)) as (d' & E' & _ & Hb). assert (d' = d) by congruence. subst d'.
    exists (d * 2)%Z. split; [|lia]. apply chk_ok. unfold int_min, int_max in *. lia. }
  exists r. split; auto. split; [rewrite <- (Forall2_length_eq _ _ _ HF); auto|].
  intros v Hv. destruct (Hgood v Hv) as (d & Ed & Hdist & _). exists d. split; auto.
  destruct (nth_error r v) as [d2|] eqn:E2.
  - destruct (Forall2_nth _ _ _ _ _ HF E2) as (a & Ea & Ha). congruence.
  - apply nth_error_None in E2. pose proof (Forall2_length_eq _ _ _ HF). lia.
Qed.

Lemma doubled_bounds g c root dist : length dist = gn g ->
  (forall v, v < gn g -> exists d, nth_error dist v = Some (2 * d)%Z /\ distance g c root v d) ->
  tour_bounds g c root dist.
Proof.
  intros Hl H t z v d Ht Hz Hin Ed. destruct (H v) as (d' & E & _ & Hmin).
  { rewrite <- Hl. eapply nth_error_Some_lt; eauto. }
  assert (d = (2 * d')%Z) by congruence. subst d. eapply tour_twice; eauto.
Qed.

Lemma covers_valid g c root dist ub rows t z s : tour_bounds g c root dist ->
  rows_for g root (filter (over dist ub) (seq 0 (gn g))) rows ->
  tour_from g root t -> any_cost g c t z -> (z <= ub)%Z -> incidence g t s -> Forall (row_sat s) rows.
Proof.
  intros Hb Hrows Ht Hz Hle Hi.
  assert (Hin : In root t) by (destruct Ht as (vs & -> & _); now left).
  apply (proj2 (rows_for_sat g root _ rows t s Hrows Hin Hi)). intros v Hv Hvt.
  apply filter_In in Hv as [_ Hv]. apply over_spec in Hv as (d & Ed & Hd).
  specialize (Hb t z v d Ht Hz Hvt Ed). lia.
Qed.

(** ** the double bound *)
Lemma cast_ok n d q : cast_int n d = Ok q -> q = Z.quot n d.
Proof. unfold cast_int, chk. destruct (_ && _); congruence. Qed.

Lemma cast_above n d q z : (0 < d)%Z -> cast_int n d = Ok q -> (z * d <= n)%Z -> (z <= q)%Z.
Proof.
  intros Hd E H. apply cast_ok in E. subst q.
  pose proof (Z.quot_rem' n d) as Q. pose proof (Z.rem_bound_abs n d ltac:(lia)) as R. nia.
Qed.

(** ** events *)
Lemma cover_exec_ok g root h nd ub : all_loops g -> root < gn g -> length (ch_dist h) = gn g ->
  cast_int (fst nd) (snd nd) = Ok ub ->
  exists rows, rows_for g root (filter (over (ch_dist h) ub) (seq 0 (gn g))) rows /\
    cover_exec g (var_map g) root h nd =
      Ok (mkCover (ch_dist h) (umod (ch_added h + Z.of_nat (length rows))) (ch_init h) (ch_rows h ++ rows)).
Proof.
  intros Hl Hr Hd Hc. unfold cover_exec. rewrite Hc. cbn [bind].
  destruct (separate_then_add_ok g root (ch_dist h) ub Hl Hr Hd) as (rows & E & H).
  rewrite E. cbn [bind fst snd]. exists rows. split; auto. now rewrite umod_add_r.
Qed.

Lemma cover_run_ok g root dist : all_loops g -> root < gn g -> length dist = gn g ->
  forall nds ubs, Forall2 (fun nd ub => cast_int (fst nd) (snd nd) = Ok ub) nds ubs ->
  forall h, ch_dist h = dist -> num_conss_added h = umod (Z.of_nat (length (ch_rows h))) ->
  exists h' rowss, foldM (cover_exec g (var_map g) root) nds h = Ok h' /\
    Forall2 (fun ub rows => rows_for g root (filter (over dist ub) (seq 0 (gn g))) rows) ubs rowss /\
    ch_rows h' = ch_rows h ++ concat rowss /\ ch_dist h' = dist /\ ch_init h' = ch_init h /\
    num_conss_added h' = umod (Z.of_nat (length (ch_rows h'))).
Proof.
  intros Hl Hr Hd nds ubs HF. induction HF as [|nd ub nds ubs Hc _ IH]; intros h Hh Hn.
  - exists h, []. cbn [foldM]. split; [reflexivity|]. split; [constructor|]. cbn [concat]. rewrite app_nil_r. auto.
  - destruct (cover_exec_ok g root h nd ub Hl Hr ltac:(rewrite Hh; auto) Hc) as (rows & Hrows & E).
    cbn [foldM]. rewrite E. cbn [bind].
    destruct (IH (mkCover (ch_dist h) (umod (ch_added h + Z.of_nat (length rows))) (ch_init h) (ch_rows h ++ rows)))
      as (h' & rowss & E' & HF' & Hrw & Hd' & Hi' & Hn').
    + exact Hh.
    + unfold num_conss_added in *. cbn [ch_added ch_init ch_rows] in *.
      rewrite umod_add. replace (ch_added h + Z.of_nat (length rows) + ch_init h)%Z
        with (ch_added h + ch_init h + Z.of_nat (length rows))%Z by lia.
      rewrite <- umod_add, Hn, umod_add, app_length. f_equal. lia.
    + exists h', (rows :: rowss). split; auto. split; [constructor; auto; now rewrite <- Hh|].
      cbn [ch_rows ch_init] in *. split; [rewrite Hrw; cbn [concat]; now rewrite app_assoc|]. auto.
Qed.

Lemma init_cover_ok g c root heur dist ub : all_loops g -> root < gn g -> length dist = gn g ->
  total_cost_edges c heur = Ok ub ->
  exists h rows, init_cost_cover g c (var_map g) root heur dist = Ok h /\
    ch_dist h = dist /\ ch_rows h = rows /\ num_conss_added h = umod (Z.of_nat (length rows)) /\
    ch_init h = num_conss_added h /\
    ((0 < ub)%Z -> rows_for g root (filter (over dist ub) (seq 0 (gn g))) rows) /\
    ((ub <= 0)%Z -> rows = []).
Proof.
  intros Hl Hr Hd E. unfold init_cost_cover. rewrite E. cbn [bind].
  destruct (Z.ltb_spec 0 ub) as [H|H].
  - destruct (separate_then_add_ok g root dist ub Hl Hr Hd) as (rows & E' & Hrows). rewrite E'.
    cbn [bind fst snd]. eexists. exists rows. split; [reflexivity|]. cbn [ch_dist ch_rows ch_init].
    unfold num_conss_added. cbn [ch_added ch_init]. rewrite Z.add_0_l.
    assert (Hm : umod (umod (Z.of_nat (length rows))) = umod (Z.of_nat (length rows))).
    { unfold umod. now rewrite Z.mod_mod. }
    rewrite Hm. repeat split; auto. lia.
  - eexists. exists []. split; [reflexivity|]. repeat split; auto. lia.
Qed.

Lemma filter_over_mono dist ub ub' n v : (ub' <= ub)%Z -> In v (filter (over dist ub) (seq 0 n)) ->
  In v (filter (over dist ub') (seq 0 n)).
Proof.
  intros Hle. rewrite !filter_In, !over_spec. intros (H1 & d & E & H2). split; auto. exists d. split; auto. lia.
Qed.
