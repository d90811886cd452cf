(** * P_Solution: extraction of solutions, the rolling gap list, rows *)
From Coq Require Import Permutation Sorting.Sorted.
From Verif Require Import Base Graph Spec Spec_Cycle M_Walk M_Graph M_Solution M_ILP M_Subtour M_CycleCover Spec_ILP.
From Verif Require Import P_Base P_Walk P_Cycle P_Extension P_ILP P_Model P_Lookup P_Cuts P_Component P_Separate.
Open Scope nat_scope.

Lemma positive_spec s v : (0 < s_den s)%Z ->
  (is_var_positive s v = true <-> (s_den s < s_num s v * 1000000000)%Z).
Proof.
  intros HD. unfold is_var_positive, scip_is_zero. rewrite andb_true_iff, negb_true_iff, Z.leb_gt, Z.ltb_lt.
  split; intros H; [rewrite Z.abs_eq in H by lia; lia|]. split; [rewrite Z.abs_eq by lia; lia|lia].
Qed.

Lemma solution_edges_raw g s entries :
  Forall (fun ev => fst ev < length (ge g) /\ snd ev = fst ev) entries -> forall acc,
  foldM (fun acc ev =>
           do uv <- endpoints g (fst ev);
           Ok (if andb (negb (Nat.eqb (fst uv) (snd uv))) (is_var_positive s (snd ev))
               then acc ++ [fst ev] else acc)) entries acc
  = Ok (acc ++ filter (fun e => negb (loopb g e) && is_var_positive s e) (map fst entries)).
Proof.
  induction 1 as [|[e v] entries [He Hs] _ IH]; intros acc.
  - cbn. now rewrite app_nil_r.
  - cbn [foldM fst snd map filter] in *. subst v.
    destruct (nth_error (ge g) e) as [[a b]|] eqn:E; [|apply nth_error_None in E; lia].
    rewrite (endpoints_ok g e a b E). cbn [bind fst snd].
    assert (El : loopb g e = Nat.eqb a b) by (unfold loopb; now rewrite E).
    rewrite El. destruct (negb (Nat.eqb a b) && is_var_positive s e); rewrite IH; [|reflexivity].
    now rewrite <- app_assoc.
Qed.

Lemma solution_edges_exact g s entries : (0 < s_den s)%Z -> var_entries g entries ->
  exists es, get_solution_edges g s entries = Ok es /\ NoDup es /\
    forall e, In e es <-> exists u v, joins g e u v /\ u <> v /\ (s_den s < s_num s e * 1000000000)%Z.
Proof.
  intros HD He. eexists. split.
  - unfold get_solution_edges. rewrite solution_edges_raw; [reflexivity|].
    apply Forall_forall. intros ev Hin. apply (Permutation_in _ He) in Hin.
    apply in_map_iff in Hin as (e & <- & Hin). apply in_seq in Hin. cbn. lia.
  - cbn [app]. apply (Permutation_map fst) in He. rewrite map_map in He. cbn [fst] in He.
    rewrite map_id in He. split.
    + apply NoDup_filter. eapply Permutation_NoDup; [apply Permutation_sym; exact He|apply seq_NoDup].
    + intros e. rewrite filter_In, andb_true_iff, negb_true_iff, (positive_spec s e HD). split.
      * intros (Hin & Hlo & Hpos). apply (Permutation_in _ He) in Hin. apply in_seq in Hin.
        destruct (nth_error (ge g) e) as [[a b]|] eqn:E; [|apply nth_error_None in E; lia].
        exists a, b. split; [now left|]. split; auto.
        unfold loopb in Hlo. rewrite E in Hlo. now apply Nat.eqb_neq.
      * intros (u & v & Hj & Hne & Hpos). pose proof (joins_lt _ _ _ _ Hj).
        split; [apply (Permutation_in _ (Permutation_sym He)), in_seq; lia|]. split; auto.
        rewrite (loopb_joins g e u v Hj). now apply Nat.eqb_neq.
Qed.

Lemma StronglySorted_filter_seq (P : nat -> bool) n k : StronglySorted lt (filter P (seq k n)).
Proof.
  revert k. induction n as [|n IH]; intros k; [constructor|]. cbn [seq filter].
  destruct (P k); [|apply IH]. constructor; [apply IH|].
  apply Forall_forall. intros v Hv. apply filter_In in Hv as [Hv _]. apply in_seq in Hv. lia.
Qed.

Lemma sorted_ext (a b : list nat) : StronglySorted lt a -> StronglySorted lt b ->
  (forall v, In v a <-> In v b) -> a = b.
Proof.
  revert b. induction a as [|x a IH]; intros b Ha Hb H.
  - destruct b as [|y b]; auto. destruct (proj2 (H y) (or_introl eq_refl)).
  - destruct b as [|y b]; [destruct (proj1 (H x) (or_introl eq_refl))|].
    apply StronglySorted_inv in Ha as [Ha Hxa]. apply StronglySorted_inv in Hb as [Hb Hyb].
    rewrite Forall_forall in Hxa, Hyb.
    assert (x = y).
    { destruct (proj1 (H x) (or_introl eq_refl)) as [->|Hx]; auto.
      destruct (proj2 (H y) (or_introl eq_refl)) as [->|Hy]; auto.
      specialize (Hxa y Hy). specialize (Hyb x Hx). lia. }
    subst y. f_equal. apply IH; auto. intros v. split; intros Hv.
    + destruct (proj1 (H v) (or_intror Hv)) as [->|]; auto. specialize (Hxa v Hv). lia.
    + destruct (proj2 (H v) (or_intror Hv)) as [->|]; auto. specialize (Hyb v Hv). lia.
Qed.

Lemma solution_vertices_exact g s : (0 < s_den s)%Z -> all_loops g ->
  exists vs, get_solution_vertices g s (var_map g) = Ok vs /\ StronglySorted lt vs /\
    forall v, In v vs <-> exists l, step_edge g v v l /\ v < gn g /\ (s_den s < s_num s l * 1000000000)%Z.
Proof.
  intros HD Hl. unfold get_solution_vertices.
  set (P := fun v => match edge g v v with Ok (Some e) => is_var_positive s e | _ => false end).
  assert (G : forall l acc, Forall (fun v => v < gn g) l ->
    foldM (fun acc v =>
           do oe <- edge g v v;
           match oe with
           | None => Throw EdgeNotFoundException
           | Some e =>
               match var_map g e with
               | None => UB NullDeref
               | Some var => Ok (if is_var_positive s var then acc ++ [v] else acc)
               end
           end) l acc = Ok (acc ++ filter P l)).
  { induction l as [|v l IH]; intros acc Hf; [cbn; now rewrite app_nil_r|].
    apply Forall_cons_iff in Hf as [Hv Hf]. cbn [foldM filter].
    destruct (edge_exists g v v Hv (Hl v Hv)) as (e & Ee).
    pose proof (proj1 (edge_Some g v v e Ee)) as Hj.
    unfold P at 1. rewrite Ee. cbn [bind].
    unfold var_map. pose proof (joins_lt _ _ _ _ Hj).
    destruct (Nat.ltb_spec e (length (ge g))); [|lia]. cbn [bind].
    fold (var_map g). rewrite IH by auto.
    destruct (is_var_positive s e); [now rewrite <- app_assoc|reflexivity]. }
  exists (filter P (vertices g)). split; [|split].
  - rewrite G; [reflexivity|]. apply Forall_forall. intros v Hv. apply in_seq in Hv. lia.
  - apply StronglySorted_filter_seq.
  - intros v. rewrite filter_In. unfold P. split.
    + intros [Hv HP]. apply in_seq in Hv. assert (Hvg : v < gn g) by lia.
      destruct (edge_exists g v v Hvg (Hl v Hvg)) as (e & Ee).
      pose proof (edge_Some g v v e Ee) as Hs. rewrite Ee in HP.
      exists e. split; auto. split; auto. now apply positive_spec.
    + intros (l & Hs & Hv & Hpos). split; [apply in_seq; lia|].
      rewrite (edge_of_step g v v l Hv Hs). now apply positive_spec.
Qed.

Lemma solution_graph_exact g sg s entries : (0 < s_den s)%Z -> var_entries g entries ->
  exists es sg', get_solution_edges g s entries = Ok es /\
    get_solution_graph g sg s entries = Ok sg' /\
    exists ps, Forall2 (fun e p => nth_error (ge g) e = Some p) es ps /\ ge sg' = ge sg ++ ps.
Proof.
  intros HD He. destruct (solution_edges_exact g s entries HD He) as (es & E & _ & Hes).
  assert (Hf : Forall (fun e => exists a b, nth_error (ge g) e = Some (a, b) /\ a <> b) es).
  { apply Forall_forall. intros e Hin. apply Hes in Hin as (u & v & [H|H] & Hne & _); eauto. }
  clear Hes. unfold get_solution_graph. rewrite E. cbn [bind]. exists es.
  assert (G : forall sg, exists sg', foldM (fun sg e => do uv <- endpoints g e;
     Ok (if Nat.eqb (fst uv) (snd uv) then sg else add_edge sg (fst uv) (snd uv))) es sg = Ok sg' /\
     exists ps, Forall2 (fun e p => nth_error (ge g) e = Some p) es ps /\ ge sg' = ge sg ++ ps).
  { clear E. induction es as [|e es IH]; intros sg0.
    - exists sg0. split; auto. exists []. split; auto. now rewrite app_nil_r.
    - apply Forall_cons_iff in Hf as [(a & b & Ee & Hne) Hf]. cbn [foldM].
      rewrite (endpoints_ok g e a b Ee). cbn [bind fst snd].
      destruct (Nat.eqb_spec a b); [congruence|].
      destruct (IH Hf (add_edge sg0 a b)) as (sg' & E' & ps & H1 & H2). exists sg'. split; auto.
      exists ((a, b) :: ps). split; [constructor; auto|]. rewrite H2. cbn [add_edge ge].
      now rewrite <- app_assoc. }
  destruct (G sg) as (sg' & E' & H). exists sg'. auto.
Qed.

Lemma integral_spec num den : (0 < den)%Z ->
  (scip_is_integral num den = true <-> exists k, (Z.abs (num - k * den) * 1000000000 <= den)%Z).
Proof.
  intros HD. unfold scip_is_integral.
  set (M := 1000000000%Z). set (f := ((num * M + den) / (den * M))%Z).
  assert (HM : (0 < den * M)%Z) by (unfold M; lia).
  pose proof (Z.div_mod (num * M + den) (den * M) ltac:(lia)) as Hdm.
  pose proof (Z.mod_pos_bound (num * M + den) (den * M) HM) as Hmod. fold f in Hdm.
  rewrite Z.leb_le. split.
  - intros H. exists f. unfold M in *. destruct (Z.abs_spec (num - f * den)) as [[_ ->]|[_ ->]]; [lia|nia].
  - intros (k & Hk).
    assert (Hf : f = k).
    { assert (k <= f /\ f <= k)%Z; [|lia].
      split; apply Z.lt_succ_r; unfold Z.succ; unfold M in *; nia. }
    subst f. rewrite Hf. unfold M in *. lia.
Qed.

Lemma solution_integral_spec n s : (0 < s_den s)%Z ->
  (is_solution_integral n s = true <->
   forall v, v < n -> exists k, (Z.abs (s_num s v - k * s_den s) * 1000000000 <= s_den s)%Z).
Proof.
  intros HD. unfold is_solution_integral. rewrite forallb_forall. split.
  - intros H v Hv. apply integral_spec; auto. apply H, in_seq. lia.
  - intros H v Hv. apply in_seq in Hv. apply integral_spec; auto. apply H. lia.
Qed.

(** at a 0/1 point satisfying the degree rows the two extractions agree *)
Lemma extraction_agrees g s rows entries : graph_ok g -> no_parallel g -> all_loops g -> binary g s ->
  degree_constraints g = Ok rows -> Forall (row_sat s) rows -> var_entries g entries ->
  exists es vs, get_solution_edges g s entries = Ok es /\
    get_solution_vertices g s (var_map g) = Ok vs /\ get_vertices_of_edges g es = Ok vs.
Proof.
  intros Hg Hp Hl Hb Er Hrows He. assert (HD := proj1 Hb).
  destruct (degree_constraints_ok g Hp Hl (mkSol 1%Z (fun _ => 0%Z))) as (rows' & Er' & Hds).
  rewrite Er in Er'. inversion Er'; subst rows'.
  pose proof (proj1 (degree_rows_sat g Hp s Hb rows Hds) Hrows) as Hdeg.
  destruct (solution_edges_exact g s entries HD He) as (es & Ee & _ & Hes).
  destruct (solution_vertices_exact g s HD Hl) as (vs & Ev & Hsv & Hvs).
  exists es, vs. split; auto. split; auto.
  destruct (vertices_of_edges_ok g es) as (vs' & Ev' & Hsv' & Hvs').
  { apply Forall_forall. intros e H. apply Hes in H as (u & v & Hj & _). eapply joins_lt; eauto. }
  rewrite Ev'. f_equal.
  assert (Hpos : forall e, e < length (ge g) ->
    ((s_den s < s_num s e * 1000000000)%Z <-> s_num s e = s_den s)).
  { intros e Hlt. destruct (proj2 Hb e Hlt) as [H|H]; rewrite H; lia. }
  assert (Hsup : forall e, In e es <-> In e (sup g s)).
  { intros e. rewrite Hes, sup_In. split.
    - intros (u & v & Hj & Hne & H). pose proof (joins_lt _ _ _ _ Hj). split; auto.
      split; [rewrite (loopb_joins g e u v Hj); now apply Nat.eqb_neq|now apply Hpos].
    - intros (Hlt & Hlo & H). destruct (nth_error (ge g) e) as [[a b]|] eqn:E;
        [|apply nth_error_None in E; lia].
      exists a, b. split; [now left|]. split; [|now apply Hpos].
      unfold loopb in Hlo. rewrite E in Hlo. now apply Nat.eqb_neq. }
  apply (sorted_ext vs' vs Hsv' Hsv). intros v. rewrite Hvs, Hvs'. split.
  - intros (e & u & Hin & Hj). apply Hsup in Hin.
    assert (Hv : v < gn g) by (apply (is_edge_range g v u Hg); now exists e).
    destruct (Hl v Hv) as [l Hjl]. exists l.
    split; [split; auto; intros f Hf; rewrite (Hp l f v v Hjl Hf); lia|]. split; auto.
    apply Hpos; [eapply joins_lt; eauto|].
    assert (Hu : In u (enbrs g (sup g s) v)) by (apply enbrs_In; exists e; auto).
    specialize (Hdeg v l Hv Hjl). destruct (enbrs g (sup g s) v) as [|? q]; [destruct Hu|].
    destruct (proj2 Hb l (joins_lt _ _ _ _ Hjl)) as [H|H]; auto. rewrite H in Hdeg.
    cbn [length] in Hdeg. rewrite Nat2Z.inj_succ in Hdeg. nia.
  - intros (l & [Hjl _] & Hv & H). apply Hpos in H; [|eapply joins_lt; eauto].
    specialize (Hdeg v l Hv Hjl). rewrite H in Hdeg.
    destruct (enbrs g (sup g s) v) as [|u q] eqn:E; [change (length (@nil nat)) with 0 in Hdeg; lia|].
    assert (Hu : In u (enbrs g (sup g s) v)) by (rewrite E; now left).
    apply enbrs_In in Hu as (e & H1 & H2). exists e, u. split; auto. now apply Hsup.
Qed.

(** ** rolling list *)
Lemma skipn_S_tl {A} n (l : list A) : skipn (S n) l = tl (skipn n l).
Proof.
  revert l. induction n as [|n IH]; intros [|a l]; auto. cbn [skipn]. rewrite <- IH. reflexivity.
Qed.

Lemma push_rolling_one {A} (hist : list A) a (n : nat) : 1 <= n ->
  push_rolling (skipn (length hist - n) hist) a (Z.of_nat n) =
  skipn (length (hist ++ [a]) - n) (hist ++ [a]).
Proof.
  intros Hn. unfold push_rolling. destruct (Z.leb_spec 1 (Z.of_nat n)); [|lia].
  rewrite !app_length, skipn_length. cbn [length].
  destruct (Z.ltb_spec (Z.of_nat n) (Z.of_nat (length hist - (length hist - n) + 1))) as [Hlt|Hge].
  - assert (Hle : n <= length hist) by lia.
    assert (Hd : exists x q, skipn (length hist - n) hist = x :: q).
    { destruct (skipn (length hist - n) hist) as [|x q] eqn:E; eauto.
      apply (f_equal (@length A)) in E. rewrite skipn_length in E. cbn in E. lia. }
    destruct Hd as (x & q & Hd). rewrite Hd. cbn [app tl].
    rewrite skipn_app. replace (length hist + 1 - n) with (S (length hist - n)) by lia.
    rewrite skipn_S_tl, Hd. cbn [tl]. replace (S (length hist - n) - length hist) with 0 by lia.
    reflexivity.
  - rewrite skipn_app. replace (length hist - n) with 0 by lia.
    replace (length hist + 1 - n) with 0 by lia. reflexivity.
Qed.

Lemma push_rolling_history {A} (hist : list A) (n : nat) : 1 <= n ->
  fold_left (fun l a => push_rolling l a (Z.of_nat n)) hist [] = skipn (length hist - n) hist.
Proof.
  intros Hn. induction hist as [|a hist IH] using rev_ind; [reflexivity|].
  rewrite fold_left_app. cbn [fold_left]. rewrite IH. now apply push_rolling_one.
Qed.

Lemma push_rolling_off {A} (hist : list A) mx : (mx < 1)%Z ->
  fold_left (fun l a => push_rolling l a mx) hist [] = [].
Proof.
  intros H. induction hist as [|a hist IH] using rev_ind; [reflexivity|].
  rewrite fold_left_app, IH. cbn [fold_left]. unfold push_rolling.
  destruct (Z.leb_spec 1 mx); [lia|reflexivity].
Qed.

Lemma tailing_off_spec {A} (small : A -> A -> bool) l mx :
  exists b, is_node_tailing_off small l mx = Ok b /\
    (b = true <-> Z.of_nat (length l) = mx /\ exists x m y, l = x :: m ++ [y] /\ small x y = true).
Proof.
  unfold is_node_tailing_off.
  destruct (Z.leb_spec 1 mx) as [H1|H1]; cbn [andb].
  2:{ exists false. split; auto. split; [discriminate|]. intros [H (x & m & y & -> & _)].
      cbn [length] in H. lia. }
  destruct (Nat.leb_spec 2 (length l)) as [H2|H2].
  2:{ exists false. split; auto. split; [discriminate|]. intros [H (x & m & y & -> & _)].
      cbn [length] in H2. rewrite app_length in H2. cbn in H2. lia. }
  destruct l as [|x l]; [cbn in H2; lia|].
  destruct l as [|y l] using rev_ind; [cbn in H2; lia|]. clear IHl.
  assert (Er : rev (x :: l ++ [y]) = y :: rev (x :: l)).
  { change (x :: l ++ [y]) with ((x :: l) ++ [y]). now rewrite rev_app_distr. }
  rewrite Er. eexists. split; [reflexivity|]. rewrite andb_true_iff, Z.eqb_eq. split.
  - intros [Hs Hz]. split; auto. eauto.
  - intros [Hz (x' & m & y' & E & Hs)]. inversion E; subst x'.
    apply app_inj_tail in H3 as [_ <-]. auto.
Qed.
