(** * P_Model: modelPrizeCollectingTSP as a whole *)
From Coq Require Import Permutation Sorted.
From Verif Require Import Base Graph Spec Spec_Cycle M_Walk M_Graph M_Solution M_ILP Spec_ILP.
From Verif Require Import P_Base P_Walk P_Cycle P_Extension P_ILP.
Open Scope nat_scope.

(** ** self loops *)
Lemma has_loops_from_spec g vs : Forall (fun v => v < gn g) vs ->
  exists b, has_loops_from g vs = Ok b /\ (b = true <-> forall v, In v vs -> is_edge g v v).
Proof.
  induction 1 as [|v vs Hv Hvs (b & E & H)]; cbn [has_loops_from].
  - exists true. split; auto. split; auto. intros _ v [].
  - destruct (is_edge_dec g v v) as [He|He].
    + destruct (edge_exists g v v Hv He) as [e Ee]. rewrite Ee. cbn [bind]. exists b. split; auto.
      rewrite H. split.
      * intros Ha u [<-|Hu]; auto.
      * intros Ha u Hu. apply Ha. now right.
    + rewrite edge_not_exists by auto. cbn [bind]. exists false. split; auto. split; [discriminate|].
      intros Ha. exfalso. apply He, Ha. now left.
Qed.

Lemma has_self_loops_spec g : exists b, has_self_loops_on_all_vertices g = Ok b /\
  (b = true <-> all_loops g).
Proof.
  destruct (has_loops_from_spec g (vertices g)) as (b & E & H).
  - apply Forall_forall. intros v Hv. apply in_seq in Hv. lia.
  - exists b. split; auto. rewrite H. unfold all_loops, vertices. split.
    + intros Ha v Hv. apply Ha, in_seq. lia.
    + intros Ha v Hv. apply in_seq in Hv. apply Ha. lia.
Qed.

Definition with_loops (g : graph) : graph :=
  mkGraph (gn g) (ge g ++ map (fun v => (v, v)) (seq 0 (gn g))).

Lemma add_loops_fold vs : forall g c, Forall (fun v => v < gn g) vs ->
  fold_left (fun gc v => (add_edge (fst gc) v v, snd gc ++ [0%Z])) vs (g, c) =
  (mkGraph (gn g) (ge g ++ map (fun v => (v, v)) vs), c ++ repeat 0%Z (length vs)).
Proof.
  induction vs as [|v vs IH]; intros g c Hf.
  - cbn. rewrite !app_nil_r. destruct g; reflexivity.
  - apply Forall_cons_iff in Hf as [Hv Hf]. cbn [fold_left fst snd].
    assert (E : add_edge g v v = mkGraph (gn g) (ge g ++ [(v, v)])).
    { unfold add_edge. f_equal. lia. }
    rewrite E, IH by exact Hf. cbn [gn ge map length repeat]. now rewrite <- !app_assoc.
Qed.

Lemma add_self_loops_ok g c :
  add_self_loops_to_graph g c = (with_loops g, c ++ repeat 0%Z (gn g)).
Proof.
  unfold add_self_loops_to_graph. rewrite add_loops_fold.
  - unfold with_loops, vertices. now rewrite seq_length.
  - apply Forall_forall. intros v Hv. apply in_seq in Hv. lia.
Qed.

Lemma with_loops_joins g e u v : joins (with_loops g) e u v <->
  joins g e u v \/ (u = v /\ u < gn g /\ e = length (ge g) + u).
Proof.
  assert (H : forall a b, nth_error (ge (with_loops g)) e = Some (a, b) <->
    nth_error (ge g) e = Some (a, b) \/ (a = b /\ a < gn g /\ e = length (ge g) + a)).
  { intros a b. cbn [with_loops ge]. destruct (Nat.lt_ge_cases e (length (ge g))) as [He|He].
    - rewrite nth_error_app1 by auto. split; auto. intros [H|(-> & _ & H)]; auto. lia.
    - rewrite nth_error_app2 by auto. split.
      + intros H. right. rewrite nth_error_map in H.
        destruct (nth_error (seq 0 (gn g)) (e - length (ge g))) as [k|] eqn:Ek; [|discriminate].
        cbn in H. inversion H; subst.
        pose proof (nth_error_Some_lt _ _ _ Ek) as Hk. rewrite seq_length in Hk.
        apply nth_error_nth with (d := 0) in Ek. rewrite seq_nth in Ek by lia. split; auto. lia.
      + intros [H|(-> & Hb & ->)].
        * apply nth_error_Some_lt in H. lia.
        * rewrite nth_error_map. replace (length (ge g) + b - length (ge g)) with b by lia.
          rewrite (nth_error_nth' _ 0) by (rewrite seq_length; auto). cbn.
          rewrite seq_nth by auto. reflexivity. }
  unfold joins at 1. rewrite !H. unfold joins. intuition (subst; auto).
Qed.

Lemma with_loops_edge g u v : is_edge (with_loops g) u v <->
  is_edge g u v \/ (u = v /\ u < gn g).
Proof.
  split.
  - intros [e He]. apply with_loops_joins in He as [He|(-> & H & _)]; [left; exists e; auto|auto].
  - intros [[e He]|[-> H]]; [exists e|exists (length (ge g) + v)]; apply with_loops_joins; auto.
Qed.

Lemma with_loops_ok g : graph_ok g -> graph_ok (with_loops g).
Proof.
  intros Hg a b Hin. cbn [with_loops ge gn] in *. apply in_app_or in Hin as [Hin|Hin]; [auto|].
  apply in_map_iff in Hin as (v & E & Hv). apply in_seq in Hv. inversion E; subst. lia.
Qed.

Lemma with_loops_parallel g : no_parallel g -> loop_free g -> no_parallel (with_loops g).
Proof.
  intros Hp Hf e f u v He Hf'. apply with_loops_joins in He. apply with_loops_joins in Hf'.
  destruct He as [He|(-> & _ & ->)], Hf' as [Hf'|(E & _ & ->)]; auto.
  - eapply Hp; eauto.
  - subst. exfalso. apply (Hf v). exists e; auto.
  - exfalso. apply (Hf v). exists f; auto.
Qed.

Lemma with_loops_all g : all_loops (with_loops g).
Proof. intros v Hv. apply with_loops_edge. right. split; auto. Qed.

Lemma with_loops_trail g t es : no_loops (with_loops g) es ->
  trail (with_loops g) t es -> trail g t es.
Proof.
  intros Hn Ht. induction Ht as [u|u v w e es Hj Ht IH]; constructor.
  - apply with_loops_joins in Hj as [Hj|(E & Hu & He)]; auto.
    exfalso. apply (Hn e u v); auto; [now left|]. apply with_loops_joins. auto.
  - apply IH. intros e' a b Hin. apply Hn. now right.
Qed.

Lemma trail_with_loops g t es : trail g t es -> trail (with_loops g) t es.
Proof. induction 1; constructor; auto. apply with_loops_joins. auto. Qed.

Lemma with_loops_tour g r t : tour_from (with_loops g) r t <-> tour_from g r t.
Proof.
  split.
  - intros Ht. pose proof Ht as (vs & E & H1 & H2 & H3 & H4).
    destruct (trail_exists _ _ H3) as [es Hes]; [rewrite E; discriminate|].
    assert (Hc : closed_tour (with_loops g) r 1 t) by (apply (closed_weaken _ r 2 1); auto).
    pose proof (closed_no_loops _ r t es Hc Hes) as Hn.
    exists vs. split; auto. split; auto. split; auto. split; auto.
    eapply trail_walk. eapply with_loops_trail; eauto.
  - intros (vs & E & H1 & H2 & H3 & H4). exists vs. split; auto. split; auto. split; auto. split; auto.
    destruct (trail_exists _ _ H3) as [es Hes]; [rewrite E; discriminate|].
    eapply trail_walk. eapply trail_with_loops; eauto.
Qed.

Lemma with_loops_step g u v e : step_edge g u v e -> step_edge (with_loops g) u v e.
Proof.
  intros [Hj Hm]. split.
  - apply with_loops_joins. auto.
  - intros f Hf. apply with_loops_joins in Hf as [Hf|(_ & _ & ->)]; auto.
    apply joins_lt in Hj. lia.
Qed.

Lemma with_loops_cost g c k t z : length c = length (ge g) ->
  walk_cost g c t z -> walk_cost (with_loops g) (c ++ k) t z.
Proof.
  intros Hc. induction 1 as [|u|u v w e x z Hs Hx Hw IH]; [constructor|constructor|].
  apply wc_cons with e; auto.
  - now apply with_loops_step.
  - rewrite nth_error_app1; auto. eapply nth_error_Some_lt; eauto.
Qed.

Lemma upd_id {A} (v : list A) i a : nth_error v i = Some a -> upd v i a = v.
Proof.
  revert i. induction v as [|b v IH]; intros [|i] H; cbn in *; try discriminate.
  - now inversion H.
  - now rewrite IH.
Qed.

Lemma assign_zero_id g c : loops_cost_zero g c ->
  assign_zero_cost_to_self_loops g c = Ok c.
Proof.
  intros Hz. unfold assign_zero_cost_to_self_loops.
  assert (G : forall vs, Forall (fun v => v < gn g) vs ->
    foldM (fun c v => do oe <- edge g v v;
       match oe with None => Ok c | Some e => vset c e 0%Z end) vs c = Ok c).
  { induction 1 as [|v vs Hv _ IH]; [reflexivity|]. cbn [foldM].
    destruct (edge_total g v v Hv) as [[e|] E]; rewrite E; cbn [bind]; auto.
    pose proof (edge_Some _ _ _ _ E) as [Hj _]. pose proof (Hz e v Hj) as Hn.
    rewrite vset_ok by (eapply nth_error_Some_lt; eauto). cbn [bind]. now rewrite upd_id. }
  apply G. apply Forall_forall. intros v Hv. apply in_seq in Hv. lia.
Qed.

Lemma with_loops_zero g c : loop_free g -> length c = length (ge g) ->
  loops_cost_zero (with_loops g) (c ++ repeat 0%Z (gn g)).
Proof.
  intros Hf Hlen e v Hj. apply with_loops_joins in Hj as [Hj|(_ & Hv & ->)].
  - exfalso. apply (Hf v). exists e. auto.
  - rewrite nth_error_app2 by lia. replace (length (ge g) + v - length c) with v by lia.
    now apply nth_error_repeat.
Qed.

(** ** the model without cuts *)
Lemma model_without_secs_ok g c p w quota root :
  graph_ok g -> no_parallel g -> all_loops g -> length c = length (ge g) ->
  prizes_within g p (- int_max) int_max -> (- int_max <= quota <= int_max)%Z ->
  root < gn g -> put_prize_onto_edge_weights g p = Ok w ->
  exists l ds, joins g l root root /\ degree_rows g ds /\
  model_without_secs g c w quota root =
    Ok (map (fun e => (e, nth e c 0%Z)) (eids g),
        mkLin (map (fun e => (e, (- wgt g p e)%Z)) (eids g)) None (Some (- quota)%Z)
        :: root_constraint l :: ds).
Proof.
  intros Hg Hp Hl Hc Hpr Hq Hr Hw.
  destruct (put_prize_ok g Hg Hp (mkSol 1%Z (fun _ => 0%Z)) p (proj1 Hpr)) as (w' & Ew & Hwl & Hwn).
  rewrite Ew in Hw. inversion Hw; subst w'.
  destruct (Hl root Hr) as [l Hj].
  destruct (degree_constraints_ok g Hp Hl (mkSol 1%Z (fun _ => 0%Z))) as (ds & Ed & Hds).
  exists l, ds. split; auto. split; auto.
  unfold model_without_secs, add_edge_variables.
  rewrite (mapM_map _ (fun e => (e, nth e c 0%Z))).
  2:{ intros e He. apply in_seq in He. unfold cost_of.
      destruct (vget_ok c e) as (z & Ez & Nz); [lia|]. rewrite Ez. cbn [bind].
      now rewrite (nth_error_nth c e 0%Z Nz). }
  cbn [bind]. rewrite (prize_constraint_ok g (mkSol 1%Z (fun _ => 0%Z)) p w quota Hpr Hq Hwl Hwn). cbn [bind].
  rewrite (edge_of_joins g l root root Hp Hr Hj). cbn [bind]. rewrite Ed. reflexivity.
Qed.

Definition ilp_rows (g : graph) (p : list Z) (quota : Z) (root : nat) (rows : list lin) : Prop :=
  exists l ds, joins g l root root /\ degree_rows g ds /\
    rows = mkLin (map (fun e => (e, (- wgt g p e)%Z)) (eids g)) None (Some (- quota)%Z)
        :: root_constraint l :: ds.

(** all rows hold at an incidence vector *)
Lemma incidence_rows g p quota root rows t s :
  graph_ok g -> no_parallel g -> all_loops g -> length p = gn g ->
  ilp_rows g p quota root rows -> tour_from g root t -> incidence g t s ->
  (Forall (row_sat s) rows <-> meets_quota p quota t).
Proof.
  intros Hg Hp Hl Hlen (l & ds & Hj & Hds & ->) Ht Hi.
  pose proof Hi as [Hb _].
  rewrite !Forall_cons_iff, (prize_row_sat g s Hb), root_row_sat.
  rewrite (degree_rows_sat g Hp s Hb ds Hds).
  assert (Hz : exists z, tour_prize p t z).
  { apply prize_sum_exists. rewrite Hlen. destruct Ht as (vs & -> & _ & _ & _ & Hf).
    rewrite removelast_cons_snoc. rewrite Forall_forall in Hf |- *. intros v Hv. apply Hf.
    cbn [In] in Hv |- *. rewrite in_app_iff. tauto. }
  destruct Hz as [z Hz].
  rewrite (incidence_weight g Hp Hl s p root t z Hlen Ht Hi Hz). split.
  - intros (H1 & _). exists z. auto.
  - intros (z' & Hz' & Hq). assert (z' = z) by (eapply prize_sum_fun; eauto). subst z'.
    split; auto. split.
    + destruct (incidence_sup g s root t Ht Hi) as (_ & es & _ & _ & _ & Hlo).
      apply (Hlo l root Hj). destruct Ht as (vs & -> & _). now left.
    + intros v e Hv He. eapply incidence_degree; eauto.
Qed.

Lemma rows_incidence g p quota root rows s entries :
  graph_ok g -> no_parallel g -> all_loops g -> length p = gn g -> root < gn g ->
  ilp_rows g p quota root rows -> binary g s -> var_entries g entries ->
  (Forall (row_sat s) rows /\ is_sol_simple_cycle g s entries = Ok true) <->
  exists t, tour_from g root t /\ incidence g t s /\ meets_quota p quota t.
Proof.
  intros Hg Hp Hl Hlen Hr Hrows Hb He.
  destruct (check_iff g Hg Hp s entries Hb He) as (b & Eb & Hiff). split.
  - intros [Hsat Hck].
    assert (Hcy : cycle_edges g 2 (sup g s)) by (apply Hiff; congruence).
    assert (Hex : exists t, tour_from g root t /\ incidence g t s).
    { pose proof Hrows as (l & ds & Hj & Hds & E). rewrite E in Hsat.
      apply Forall_cons_iff in Hsat as [_ Hsat]. apply Forall_cons_iff in Hsat as [Hro Hsat].
      apply root_row_sat in Hro. pose proof (proj1 (degree_rows_sat g Hp s Hb ds Hds) Hsat) as Hdeg.
      apply support_cycle; auto.
      intros l' Hj'. now rewrite <- (Hp l l' root root Hj Hj'). }
    destruct Hex as (t & Ht & Hi). exists t. split; auto. split; auto.
    apply (incidence_rows g p quota root rows t s); auto.
  - intros (t & Ht & Hi & Hq). split.
    + apply (incidence_rows g p quota root rows t s); auto.
    + rewrite Eb. f_equal. apply Hiff.
      destruct (incidence_sup g s root t Ht Hi) as (_ & es & Htr & HP & _).
      exists root, t, es. split; [exact Ht|]. split; auto. now apply Permutation_sym.
Qed.

(** ** heuristic solutions *)
Lemma set_insert_In x l y : In y (set_insert x l) <-> y = x \/ In y l.
Proof.
  induction l as [|z l IH]; cbn [set_insert].
  - cbn [In]. intuition.
  - destruct (Nat.ltb_spec x z); cbn [In]; [intuition|].
    destruct (Nat.eqb_spec x z) as [->|]; cbn [In]; [intuition|]. rewrite IH. intuition.
Qed.

Lemma set_insert_sorted x l : StronglySorted lt l -> StronglySorted lt (set_insert x l).
Proof.
  induction 1 as [|y l Hs IH Hf]; cbn [set_insert].
  - repeat constructor.
  - destruct (Nat.ltb_spec x y) as [Hlt|Hge].
    + constructor; [constructor; auto|]. constructor; auto.
      eapply Forall_impl; [|exact Hf]. intros; cbn in *; lia.
    + destruct (Nat.eqb_spec x y) as [->|Hne]; [constructor; auto|].
      constructor; auto. apply Forall_forall. intros z Hz. apply set_insert_In in Hz as [->|Hz]; [lia|].
      rewrite Forall_forall in Hf. auto.
Qed.

Lemma vertices_of_edges_ok g es : Forall (fun e => e < length (ge g)) es ->
  exists vs, get_vertices_of_edges g es = Ok vs /\ StronglySorted lt vs /\
    forall v, In v vs <-> exists e u, In e es /\ joins g e v u.
Proof.
  intros Hf. unfold get_vertices_of_edges.
  assert (G : forall es acc, Forall (fun e => e < length (ge g)) es -> StronglySorted lt acc ->
    exists vs, foldM (fun s e => do uv <- endpoints g e;
        Ok (set_insert (snd uv) (set_insert (fst uv) s))) es acc = Ok vs /\ StronglySorted lt vs /\
      forall v, In v vs <-> In v acc \/ exists e u, In e es /\ joins g e v u).
  { clear es Hf. induction es as [|e es IH]; intros acc Hf Hs.
    - exists acc. split; auto. split; auto. intros v. split; auto.
      intros [|(e & u & [] & _)]; auto.
    - apply Forall_cons_iff in Hf as [He Hf]. cbn [foldM].
      destruct (nth_error (ge g) e) as [[a b]|] eqn:E; [|apply nth_error_None in E; lia].
      rewrite (endpoints_ok g e a b E). cbn [bind fst snd].
      destruct (IH (set_insert b (set_insert a acc)) Hf) as (vs & E1 & H1 & H2).
      { now apply set_insert_sorted, set_insert_sorted. }
      exists vs. split; auto. split; auto. intros v. rewrite H2, !set_insert_In. split.
      + intros [[->|[->|H]]|(e' & u & Hin & Hj)]; auto.
        * right. exists e, a. split; [now left|]. now right.
        * right. exists e, b. split; [now left|]. now left.
        * right. exists e', u. split; auto. now right.
      + intros [H|(e' & u & [<-|Hin] & Hj)]; auto.
        * destruct Hj as [Hj|Hj]; rewrite E in Hj; inversion Hj; subst; auto.
        * right. eauto. }
  destruct (G es [] Hf) as (vs & E & H1 & H2); [constructor|].
  exists vs. split; auto. split; auto. intros v. rewrite H2. cbn [In]. tauto.
Qed.

Lemma self_loops_ok g vs : Forall (fun v => v < gn g) vs -> (forall v, In v vs -> is_edge g v v) ->
  exists ls, get_self_loops g vs = Ok ls /\ Forall2 (fun v l => step_edge g v v l) vs ls.
Proof.
  intros Hf He. unfold get_self_loops. apply mapM_exists. intros v Hv.
  rewrite Forall_forall in Hf. destruct (edge_exists g v v (Hf v Hv) (He v Hv)) as [e E].
  exists e. rewrite E. split; auto. now apply edge_Some.
Qed.

Lemma edge_variables_ok g es : Forall (fun e => e < length (ge g)) es ->
  get_edge_variables (var_map g) es = Ok es.
Proof.
  intros Hf. unfold get_edge_variables. rewrite (mapM_map _ (fun e => e)); [now rewrite map_id|].
  intros e He. rewrite Forall_forall in Hf. specialize (Hf e He). unfold var_map.
  destruct (Nat.ltb_spec e (length (ge g))); [reflexivity|lia].
Qed.

Lemma Forall2_In_r {A B} (P : A -> B -> Prop) l1 l2 b : Forall2 P l1 l2 -> In b l2 ->
  exists a, In a l1 /\ P a b.
Proof.
  induction 1 as [|a c l1 l2 HP _ IH]; intros Hin; [destruct Hin|].
  destruct Hin as [->|Hin]; [exists a; split; auto; now left|].
  destruct (IH Hin) as (a' & H1 & H2). exists a'. split; auto. now right.
Qed.

Lemma Forall2_In_l {A B} (P : A -> B -> Prop) l1 l2 a : Forall2 P l1 l2 -> In a l1 ->
  exists b, In b l2 /\ P a b.
Proof.
  induction 1 as [|c b l1 l2 HP _ IH]; intros Hin; [destruct Hin|].
  destruct Hin as [->|Hin]; [exists b; split; auto; now left|].
  destruct (IH Hin) as (b' & H1 & H2). exists b'. split; auto. now right.
Qed.

Lemma trail_ends g t es v : trail g t es -> es <> [] ->
  (In v t <-> exists e u, In e es /\ joins g e v u).
Proof.
  induction 1 as [u|u w t e es Hj Ht IH]; intros Hn; [congruence|].
  destruct es as [|e' es].
  - inversion Ht; subst. cbn [In]. split.
    + intros [<-|[<-|[]]]; [exists e, w|exists e, u]; split; auto. now apply joins_sym.
    + intros (f & y & [<-|[]] & Hf). destruct (joins_fun g _ _ _ _ _ Hj Hf) as [[-> _]|[_ ->]]; auto.
  - cbn [In] in IH |- *. specialize (IH ltac:(discriminate)). split.
    + intros [<-|Hv]; [exists e, w; auto|].
      apply IH in Hv as (f & y & Hf & Hy). exists f, y. auto.
    + intros (f & y & [<-|Hf] & Hy).
      * destruct (joins_fun g _ _ _ _ _ Hj Hy) as [[-> _]|[_ ->]]; auto.
      * right. apply IH. exists f, y. auto.
Qed.

Lemma heuristic_edges_ok g root t es es' : graph_ok g -> no_parallel g -> all_loops g ->
  tour_from g root t -> trail g t es' -> Permutation es es' ->
  exists h, add_heuristic_edges g (var_map g) es = Ok h /\ incidence g t h.
Proof.
  intros Hg Hp Hl Ht Htr HP.
  pose proof (trail_valid g t es' Htr) as Hv'.
  assert (Hv : Forall (fun e => e < length (ge g)) es).
  { apply Forall_forall. intros e Hin. rewrite Forall_forall in Hv'. apply Hv'.
    now apply (Permutation_in _ HP). }
  assert (Hne : es' <> []).
  { intros ->. apply trail_length in Htr. destruct Ht as (vs & -> & _ & H2 & _).
    cbn [length] in Htr. rewrite app_length in Htr. cbn [length] in Htr. lia. }
  destruct (vertices_of_edges_ok g es Hv) as (vs & Evs & _ & Hvs).
  assert (Hin : forall v, In v vs <-> In v t).
  { intros v. rewrite Hvs, (trail_ends g t es' v Htr Hne). split; intros (e & u & H1 & H2); exists e, u; split; auto.
    - now apply (Permutation_in _ HP).
    - now apply (Permutation_in _ (Permutation_sym HP)). }
  assert (Hr : Forall (fun v => v < gn g) vs).
  { apply Forall_forall. intros v H. apply Hin in H. destruct Ht as (us & _ & _ & _ & _ & Hf).
    rewrite Forall_forall in Hf. auto. }
  destruct (self_loops_ok g vs Hr) as (ls & Els & Hls).
  { intros v H. apply Hl. rewrite Forall_forall in Hr. auto. }
  assert (Hlv : Forall (fun e => e < length (ge g)) ls).
  { apply Forall_forall. intros e He. destruct (Forall2_In_r _ _ _ _ Hls He) as (v & _ & [Hj _]).
    eapply joins_lt; eauto. }
  unfold add_heuristic_edges. rewrite Evs. cbn [bind]. rewrite Els. cbn [bind].
  rewrite (edge_variables_ok g ls Hlv). cbn [bind]. rewrite (edge_variables_ok g es Hv). cbn [bind].
  eexists. split; [reflexivity|]. split.
  - split; [cbn; lia|]. intros e He. cbn [heuristic_sol s_num s_den]. destruct (memb e (es ++ ls)); auto.
  - exists es'. split; auto. intros e He. cbn [heuristic_sol s_num s_den].
    assert (Hm : In e (es ++ ls) <-> In e es' \/ exists v, In v t /\ joins g e v v).
    { rewrite in_app_iff. split.
      - intros [H|H]; [left; now apply (Permutation_in _ HP)|].
        destruct (Forall2_In_r _ _ _ _ Hls H) as (v & H1 & [H2 _]). right. exists v. split; auto.
        now apply Hin.
      - intros [H|(v & H1 & H2)]; [left; now apply (Permutation_in _ (Permutation_sym HP))|].
        right. apply Hin in H1. destruct (Forall2_In_l _ _ _ _ Hls H1) as (l & H3 & [H4 _]).
        now rewrite (Hp _ _ _ _ H2 H4). }
    rewrite <- Hm, <- memb_In. destruct (memb e (es ++ ls)); split; auto; intros; lia || discriminate.
Qed.

(** ** the whole model *)
Lemma model_pctsp_loops g heur c p quota root :
  graph_ok g -> no_parallel g -> all_loops g -> length c = length (ge g) ->
  prizes_within g p (- int_max) int_max -> (- int_max <= quota <= int_max)%Z -> root < gn g ->
  (heur = [] \/ exists t es, tour_from g root t /\ trail g t es /\ Permutation heur es) ->
  exists rows h, model_pctsp g heur c p quota root =
    Ok (mkIlp g c (map (fun e => (e, nth e c 0%Z)) (eids g)) rows h) /\
    ilp_rows g p quota root rows /\
    (heur = [] -> h = None) /\
    (forall t es, tour_from g root t -> trail g t es -> Permutation heur es ->
       exists s, h = Some s /\ incidence g t s).
Proof.
  intros Hg Hp Hl Hc Hpr Hq Hr Hh. unfold model_pctsp.
  destruct (has_self_loops_spec g) as (b & Eb & Hb). rewrite Eb. cbn [bind].
  assert (b = true) by (apply Hb; auto). subst b. cbn [bind].
  destruct (put_prize_ok g Hg Hp (mkSol 1%Z (fun _ => 0%Z)) p (proj1 Hpr)) as (w & Ew & _). rewrite Ew. cbn [bind].
  destruct (model_without_secs_ok g c p w quota root) as (l & ds & Hj & Hds & Em); auto.
  rewrite Em. cbn [bind].
  assert (Hrows : ilp_rows g p quota root
    (mkLin (map (fun e => (e, (- wgt g p e)%Z)) (eids g)) None (Some (- quota)%Z)
        :: root_constraint l :: ds)) by (exists l, ds; auto).
  destruct heur as [|e0 heur].
  - eexists. eexists. split; [reflexivity|]. split; [exact Hrows|]. split; auto.
    intros t es Ht Htr HP. apply Permutation_nil in HP. subst es. apply trail_length in Htr.
    destruct Ht as (vs & -> & _). cbn [length] in Htr. rewrite app_length in Htr. cbn [length] in Htr. lia.
  - destruct Hh as [Hh|(t0 & es0 & Ht0 & Htr0 & HP0)]; [discriminate|].
    destruct (heuristic_edges_ok g root t0 (e0 :: heur) es0) as (h & Eh & Hi); auto.
    rewrite Eh. cbn [bind]. eexists. eexists. split; [reflexivity|]. split; [exact Hrows|].
    split; [discriminate|]. intros t es Ht Htr HP.
    destruct (heuristic_edges_ok g root t (e0 :: heur) es) as (h' & Eh' & Hi'); auto.
    rewrite Eh in Eh'. inversion Eh'; subst h'. eauto.
Qed.

Lemma model_pctsp_simple g heur c p quota root :
  graph_ok g -> no_parallel g -> loop_free g -> length c = length (ge g) -> root < gn g ->
  model_pctsp g heur c p quota root =
  model_pctsp (with_loops g) heur (c ++ repeat 0%Z (gn g)) p quota root.
Proof.
  intros Hg Hp Hf Hc Hr. unfold model_pctsp.
  destruct (has_self_loops_spec g) as (b & Eb & Hb). rewrite Eb.
  assert (b = false).
  { destruct b; auto. exfalso. apply (Hf root), Hb; auto. }
  subst b. destruct (has_self_loops_spec (with_loops g)) as (b & Eb' & Hb'). rewrite Eb'.
  assert (b = true) by (apply Hb', with_loops_all). subst b.
  cbn [bind]. rewrite add_self_loops_ok. cbn [fst snd].
  rewrite assign_zero_id by (apply with_loops_zero; auto). reflexivity.
Qed.

(** ** prizes on edges *)
Lemma nth_ext_list {A} : forall l l' : list A,
  (forall i, nth_error l i = nth_error l' i) -> l = l'.
Proof.
  induction l as [|a l IH]; intros [|b l'] H; auto.
  - specialize (H 0). discriminate.
  - specialize (H 0). discriminate.
  - f_equal; [specialize (H 0); cbn in H; congruence|]. apply IH. intros i. apply (H (S i)).
Qed.

Lemma put_prize_spec g p : graph_ok g -> no_parallel g -> length p = gn g ->
  exists w, put_prize_onto_edge_weights g p = Ok (map Some w) /\ length w = length (ge g) /\
    (forall e v, joins g e v v -> nth_error w e = nth_error p v) /\
    (forall e u v, joins g e u v -> u <> v -> nth_error w e = Some 0%Z).
Proof.
  intros Hg Hp Hl.
  destruct (put_prize_ok g Hg Hp (mkSol 1%Z (fun _ => 0%Z)) p Hl) as (w & E & Hw & Hn).
  assert (Ew : w = map Some (map (wgt g p) (eids g))).
  { apply nth_ext_list. intros e. rewrite map_map, nth_error_map.
    destruct (Nat.lt_ge_cases e (length (ge g))) as [He|He].
    - rewrite Hn by auto. unfold eids. rewrite (nth_error_nth' _ 0) by (rewrite seq_length; auto).
      cbn. now rewrite seq_nth.
    - replace (nth_error w e) with (@None (option Z)) by (symmetry; apply nth_error_None; lia).
      replace (nth_error (eids g) e) with (@None nat); [reflexivity|].
      symmetry. apply nth_error_None. unfold eids. rewrite seq_length. lia. }
  exists (map (wgt g p) (eids g)). rewrite <- Ew. split; auto. split.
  { rewrite map_length. unfold eids. apply seq_length. }
  assert (Hnth : forall e, e < length (ge g) ->
    nth_error (map (wgt g p) (eids g)) e = Some (wgt g p e)).
  { intros e He. rewrite nth_error_map. unfold eids.
    rewrite (nth_error_nth' _ 0) by (rewrite seq_length; auto). cbn. now rewrite seq_nth. }
  split.
  - intros e v Hj. rewrite Hnth by (eapply joins_lt; eauto).
    assert (Ee : nth_error (ge g) e = Some (v, v)) by (destruct Hj; auto).
    unfold wgt. rewrite Ee, Nat.eqb_refl.
    assert (v < length p).
    { rewrite Hl. apply nth_error_In in Ee. now apply Hg in Ee. }
    symmetry. apply nth_error_nth'. auto.
  - intros e u v Hj Hne. rewrite Hnth by (eapply joins_lt; eauto).
    unfold wgt. destruct Hj as [-> | ->].
    + destruct (Nat.eqb_spec u v); [contradiction|]. reflexivity.
    + destruct (Nat.eqb_spec v u); [subst; contradiction|]. reflexivity.
Qed.

Lemma cycle_weight g p r t es ls z :
  graph_ok g -> no_parallel g -> length p = gn g -> tour_from g r t -> trail g t es ->
  Forall2 (fun v l => joins g l v v) (removelast t) ls -> tour_prize p t z ->
  exists w, put_prize_onto_edge_weights g p = Ok (map Some w) /\ prize_sum w (es ++ ls) z.
Proof.
  intros Hg Hp Hl Ht Htr Hls Hz.
  destruct (put_prize_spec g p Hg Hp Hl) as (w & E & _ & H1 & H2). exists w. split; auto.
  assert (Hc : closed_tour g r 1 t) by (apply (closed_weaken _ r 2 1); auto).
  pose proof (closed_no_loops _ r t es Hc Htr) as Hn.
  assert (G : prize_sum w ls z).
  { unfold tour_prize in Hz. clear -Hls Hz H1. revert z Hz.
    induction Hls as [|v l vs ls Hj _ IH]; intros z Hz.
    - inversion Hz; constructor.
    - apply prize_sum_cons_inv in Hz as (x & y & Hx & Hy & ->). constructor; auto.
      rewrite (H1 l v Hj). auto. }
  assert (Hes : Forall (fun e => nth_error w e = Some 0%Z) es).
  { apply Forall_forall. intros e He.
    assert (Hj : exists u v, joins g e u v).
    { clear -Htr He. induction Htr as [|u v t' e' es Hj _ IH]; [destruct He|].
      destruct He as [<-|He]; eauto. }
    destruct Hj as (u & v & Hj). apply (H2 e u v Hj). eapply Hn; eauto. }
  clear -G Hes. induction Hes as [|e es He _ IH]; [exact G|].
  cbn [app]. change z with (0 + z)%Z. constructor; auto.
Qed.

(** ** the prize row for any edge weights *)
Definition wt (o : option Z) : Z := match o with Some z => z | None => 0%Z end.

Lemma prize_terms_ok (w : list (option Z)) :
  Forall (fun o => (- int_max <= wt o <= int_max)%Z) w ->
  mapM (fun e => do o <- vget w e; do x <- chk (- (match o with Some x => x | None => 0 end)); Ok (e, x))
    (seq 0 (length w)) = Ok (map (fun ez => (fst ez, (- snd ez)%Z)) (combine (seq 0 (length w)) (map wt w))).
Proof.
  intros Hw.
  assert (H : forall suf pre, w = pre ++ suf ->
    mapM (fun e => do o <- vget w e; do x <- chk (- (match o with Some x => x | None => 0 end)); Ok (e, x))
      (seq (length pre) (length suf)) =
    Ok (map (fun ez => (fst ez, (- snd ez)%Z)) (combine (seq (length pre) (length suf)) (map wt suf)))).
  { induction suf as [|o suf IH]; intros pre E; [reflexivity|]. cbn [length seq mapM combine map].
    assert (vget w (length pre) = Ok o) as ->.
    { unfold vget. rewrite E, nth_error_app2, Nat.sub_diag by lia. reflexivity. }
    cbn [bind].
    assert (Ho : (- int_max <= wt o <= int_max)%Z).
    { rewrite Forall_forall in Hw. apply Hw. rewrite E. apply in_elt. }
    change (match o with Some x => x | None => 0%Z end) with (wt o).
    assert (chk (- wt o) = Ok (- wt o)%Z) as ->.
    { apply chk_ok. unfold int_max, int_min in *. lia. }
    cbn [bind]. specialize (IH (pre ++ [o])). rewrite app_length, Nat.add_1_r in IH.
    rewrite IH by (rewrite <- app_assoc; exact E). reflexivity. }
  exact (H w [] eq_refl).
Qed.

Lemma lin_value_neg x ts : lin_value x (map (fun ez => (fst ez, (- snd ez)%Z)) ts) = (- lin_value x ts)%Z.
Proof. induction ts as [|[v a] ts IH]; [reflexivity|]. cbn [map lin_value fst snd]. rewrite IH. lia. Qed.

Lemma prize_row_exact g (w : list (option Z)) quota : length w = length (ge g) ->
  Forall (fun o => (- int_max <= wt o <= int_max)%Z) w -> (- int_max <= quota <= int_max)%Z ->
  exists row, prize_constraint g w quota = Ok row /\
    forall s, row_sat s row <->
      (quota * s_den s <= lin_value (s_num s) (combine (seq 0 (length (ge g))) (map wt w)))%Z.
Proof.
  intros Hl Hw Hq. unfold prize_constraint.
  assert (chk (- quota) = Ok (- quota)%Z) as ->.
  { apply chk_ok. unfold int_max, int_min in *. lia. }
  cbn [bind]. rewrite <- Hl, prize_terms_ok by auto. cbn [bind].
  eexists. split; [reflexivity|]. intros s. unfold row_sat. cbn [l_lhs l_rhs l_terms].
  rewrite lin_value_neg. split.
  - intros [_ H]. specialize (H _ eq_refl). lia.
  - intros H. split; [discriminate|]. intros b E. inversion E. lia.
Qed.

Lemma no_root_loop g c (w : list (option Z)) quota root : length c = length (ge g) -> length w = length (ge g) ->
  Forall (fun o => (- int_max <= wt o <= int_max)%Z) w -> (- int_max <= quota <= int_max)%Z ->
  root < gn g -> ~ is_edge g root root ->
  model_without_secs g c w quota root = Throw EdgeNotFoundException.
Proof.
  intros Hc Hl Hw Hq Hr Hn. unfold model_without_secs.
  destruct (mapM_exists (fun e => do x <- cost_of c e; Ok (e, x)) (fun _ _ => True) (seq 0 (length (ge g)))) as (obj & Eo & _).
  { intros e He. apply in_seq in He. unfold cost_of.
    destruct (vget c e) eqn:E; unfold vget in E; destruct (nth_error c e) eqn:E2; try discriminate.
    - eexists. cbn [bind]. split; reflexivity || auto.
    - apply nth_error_None in E2. lia. }
  unfold add_edge_variables. rewrite Eo. cbn [bind].
  destruct (prize_row_exact g w quota Hl Hw Hq) as (row & Er & _). rewrite Er. cbn [bind].
  destruct (edge_total g root root Hr) as [[e|] E]; rewrite E; [|reflexivity].
  apply edge_Some in E as [Hj _]. exfalso. apply Hn. now exists e.
Qed.
