(** * P_Extension: path extension keeps closed simple tours and increases the prize. *)
From Coq Require Import Permutation.
From Verif Require Import Base Graph Spec M_Float M_Walk M_Graph M_Extension
  P_Base P_Walk P_Float P_BFS P_Choose.
Open Scope nat_scope.

(** ** list helpers *)
Lemma nth_error_ext' {A} (l1 l2 : list A) : length l1 = length l2 ->
  (forall i, i < length l1 -> nth_error l1 i = nth_error l2 i) -> l1 = l2.
Proof.
  revert l2; induction l1 as [|a t IH]; intros [|b u] Hl H; simpl in Hl; try lia; auto.
  f_equal.
  - specialize (H 0 ltac:(simpl; lia)). simpl in H. congruence.
  - apply IH; [lia|]. intros i Hi. apply (H (S i)). simpl. lia.
Qed.

Lemma split2 {A} (t : list A) i j : i < j -> j < length t ->
  exists A x M y B, t = A ++ x :: M ++ y :: B /\ length A = i /\ S (length M) = j - i.
Proof.
  intros Hij Hj.
  destruct (nth_error t i) as [x|] eqn:Ex; [|apply nth_error_None in Ex; lia].
  pose proof (nth_error_split_at _ _ _ Ex) as E1.
  destruct (nth_error (skipn (S i) t) (j - S i)) as [y|] eqn:Ey.
  2:{ apply nth_error_None in Ey. rewrite skipn_length in Ey. lia. }
  pose proof (nth_error_split_at _ _ _ Ey) as E2.
  exists (firstn i t), x, (firstn (j - S i) (skipn (S i) t)), y, (skipn (S (j - S i)) (skipn (S i) t)).
  split; [rewrite <- E2; exact E1|]. split.
  - rewrite firstn_length. lia.
  - rewrite firstn_length, skipn_length. lia.
Qed.

Lemma is_walk_nth g w : is_walk g w <->
  forall m u v, nth_error w m = Some u -> nth_error w (S m) = Some v -> is_edge g u v.
Proof.
  split.
  - induction 1 as [|a|a b w He Hw IH]; intros m u v Hu Hv.
    + destruct m; discriminate.
    + destruct m; discriminate.
    + destruct m as [|m]; cbn [nth_error] in *; [inversion Hu; inversion Hv; subst; auto|eauto].
  - induction w as [|a w IH]; intros H; [constructor|]. destruct w as [|b w]; [constructor|].
    constructor; [apply (H 0); reflexivity|]. apply IH. intros m u v Hu Hv. apply (H (S m)); auto.
Qed.

Lemma internal_nth w m v : nth_error w m = Some v -> 0 < m -> S m < length w ->
  is_internal_vertex_of_walk w v = Ok true.
Proof.
  intros Hn Hm Hl. unfold is_internal_vertex_of_walk.
  destruct (Nat.ltb_spec (length w) 2) as [H|_]; [lia|].
  f_equal. apply memb_In. destruct w as [|a w]; [simpl in Hl; lia|]. cbn [tl].
  destruct m as [|m]; [lia|]. cbn [nth_error] in Hn. cbn [length] in Hl.
  destruct (exists_last (l := w)) as (l & x & ->); [intros ->; simpl in Hl; lia|].
  rewrite removelast_snoc. rewrite app_length in Hl. simpl in Hl.
  rewrite nth_error_app1 in Hn by lia. eapply nth_error_In; eauto.
Qed.

Lemma set_intersection_In u l1 : forall l2, In u (set_intersection l1 l2) -> In u l1 /\ In u l2.
Proof.
  induction l1 as [|x t1 IH]; [intros l2 []|].
  induction l2 as [|y t2 IH2]; [intros []|].
  change (set_intersection (x :: t1) (y :: t2)) with
    (if x <? y then set_intersection t1 (y :: t2)
     else if y <? x then set_intersection (x :: t1) t2
     else x :: set_intersection t1 t2).
  destruct (Nat.ltb_spec x y) as [H|H].
  - intros Hu. apply IH in Hu as [H1 H2]. simpl; auto.
  - destruct (Nat.ltb_spec y x) as [H'|H'].
    + intros Hu. apply IH2 in Hu as [H1 H2]. simpl; auto.
    + assert (x = y) by lia. subst y. intros [->|Hu]; [simpl; auto|].
      apply IH in Hu as [H1 H2]. simpl; auto.
Qed.

Lemma ins_sorted_In u x l : In u (ins_sorted x l) <-> u = x \/ In u l.
Proof.
  induction l as [|y t IH]; simpl; [intuition|].
  destruct (x <=? y); simpl; rewrite ?IH; intuition.
Qed.

Lemma sort_nat_In u l : In u (sort_nat l) <-> In u l.
Proof. induction l as [|x t IH]; simpl; [tauto|]. rewrite ins_sorted_In, IH. intuition. Qed.

Lemma neighbor_intersection_ok g u v : u < gn g -> v < gn g ->
  exists l, neighbor_intersection g u v = Ok l /\ forall w, In w l -> is_edge g u w /\ is_edge g v w.
Proof.
  intros Hu Hv. unfold neighbor_intersection. rewrite !adjacent_ok by auto. cbn [bind].
  eexists; split; [reflexivity|]. intros w Hw. apply set_intersection_In in Hw as [H1 H2].
  rewrite sort_nat_In in *. split; now apply nbrs_In.
Qed.

(** marking the vertices of the tour *)
Lemma mark_tour n t : Forall (fun v => v < n) t -> exists m0,
  foldM (fun m h => vset m h true) t (repeat false n) = Ok m0 /\ length m0 = n /\
  (forall v, In v t -> is_true_at m0 v) /\
  (forall v, v < n -> ~ In v t -> is_false_at m0 v).
Proof.
  intros Hf.
  destruct (foldM_inv (fun m h => vset m h true)
    (fun done m => length m = n /\ (forall v, In v done -> is_true_at m v) /\
                   (forall v, v < n -> ~ In v done -> is_false_at m v)) t (repeat false n))
    as (m0 & E & H); [| |exists m0; auto].
  - split; [apply repeat_length|]. split; [intros v []|].
    intros v Hv _. unfold is_false_at. now apply nth_error_repeat.
  - intros done x rest m E (H1 & H2 & H3).
    assert (Hx : x < n).
    { rewrite Forall_forall in Hf. apply Hf. rewrite E. apply in_app_iff; simpl; auto. }
    exists (upd m x true). rewrite vset_ok by lia. split; [auto|].
    rewrite upd_length. split; [auto|]. split.
    + intros v Hv. unfold is_true_at. rewrite upd_nth by lia. destruct (Nat.eqb_spec x v); auto.
      apply in_app_iff in Hv as [Hv|[Hv|[]]]; [now apply H2|congruence].
    + intros v Hv Hn. rewrite in_app_iff in Hn. simpl in Hn. unfold is_false_at.
      rewrite upd_other by tauto. apply H3; tauto.
Qed.

(** ** closed tours *)
Lemma closed_len g r m t : closed_tour g r m t -> exists k, length t = S k /\ m < k /\ k <= gn g /\
  nth_error t k = Some r /\ nth_error t 0 = Some r.
Proof.
  intros (vs & -> & Hnd & Hm & Hw & Hf). exists (S (length vs)).
  assert (Hlen : length (r :: vs) <= gn g).
  { apply NoDup_length_le; auto. apply Forall_forall. intros x Hx. rewrite Forall_forall in Hf.
    apply Hf. destruct Hx as [->|Hx]; [now left|right; apply in_app_iff; auto]. }
  cbn [length] in *. rewrite app_length. cbn [length].
  repeat split; try lia. cbn [nth_error]. rewrite nth_error_app2, Nat.sub_diag by lia. reflexivity.
Qed.

Lemma closed_root_pos g r m t q k : closed_tour g r m t -> length t = S k ->
  nth_error t q = Some r -> 0 < q -> q < k -> False.
Proof.
  intros (vs & -> & Hnd & _ & _ & _) Hl Hq H0 Hk.
  cbn [length] in Hl. rewrite app_length in Hl. simpl in Hl.
  destruct q as [|q]; [lia|]. cbn [nth_error] in Hq. rewrite nth_error_app1 in Hq by lia.
  inversion Hnd as [|? ? Hn _]; subst. apply Hn. eapply nth_error_In; eauto.
Qed.

Lemma closed_weaken g r m m' t : m' <= m -> closed_tour g r m t -> closed_tour g r m' t.
Proof. intros H (vs & E & H1 & H2 & H3). exists vs. repeat split; auto; try lia; tauto. Qed.

Lemma tour_closed g r t : tour_from g r t <-> closed_tour g r 2 t.
Proof. reflexivity. Qed.

(** sub-paths of a closed tour are walks *)
Lemma subpath_walk g r m t k i w : closed_tour g r m t -> length t = S k -> i < k ->
  (forall q, q < length w -> nth_error w q = nth_error t ((i + q) mod k)) ->
  is_walk g w /\ Forall (fun v => v < gn g) w.
Proof.
  intros Ht Hl Hi Hn.
  destruct (closed_len g r m t Ht) as (k' & Hl' & Hm & _ & Hk & H0).
  assert (k' = k) by lia. subst k'.
  destruct Ht as (vs & Et & Hnd & _ & Hw & Hf). split.
  - apply is_walk_nth. intros q u v Hu Hv.
    pose proof (nth_error_Some_lt _ _ _ Hu). pose proof (nth_error_Some_lt _ _ _ Hv).
    rewrite Hn in Hu, Hv by auto.
    assert (Hmod : nth_error t ((i + S q) mod k) = nth_error t (S ((i + q) mod k))).
    { pose proof (Nat.mod_upper_bound (i + q) k ltac:(lia)) as Hb.
      replace (i + S q) with (S (i + q)) by lia.
      destruct (Nat.eq_dec (S ((i + q) mod k)) k) as [Ek|Ek].
      - replace (S (i + q) mod k) with 0; [congruence|].
        symmetry. rewrite <- Nat.add_1_r. rewrite <- Nat.add_mod_idemp_l by lia.
        replace ((i + q) mod k + 1) with k by lia. apply Nat.mod_same. lia.
      - f_equal. rewrite <- Nat.add_1_r. rewrite <- Nat.add_mod_idemp_l by lia.
        rewrite Nat.mod_small by lia. lia. }
    rewrite Hmod in Hv. eapply (proj1 (is_walk_nth g t) Hw); eauto.
  - apply Forall_forall. intros v Hv. apply In_nth_error in Hv as [q Hq].
    pose proof (nth_error_Some_lt _ _ _ Hq). rewrite Hn in Hq by auto.
    rewrite Forall_forall in Hf. apply Hf. eapply nth_error_In; eauto.
Qed.

(** a candidate path between [x] and [y] through vertices outside the tour *)
Definition good_cand (g : graph) (t : list nat) (x y : nat) (path : list nat) : Prop :=
  exists int, path = x :: int ++ [y] /\ int <> [] /\ NoDup int /\
    (forall v, In v int -> ~ In v t) /\ is_walk g path /\ Forall (fun v => v < gn g) path.

Lemma good_cand_fits g t x y path : In x t -> good_cand g t x y path ->
  fits g (S (gn g)) path.
Proof.
  intros Hx (int & -> & Hne & Hnd & Hd & Hw & Hf). split; [auto|]. split; [auto|].
  assert (Hl : length (x :: int) <= gn g).
  { apply NoDup_length_le.
    - constructor; auto. intros H. now apply (Hd x).
    - apply Forall_forall. intros v Hv. rewrite Forall_forall in Hf. apply Hf.
      destruct Hv as [->|Hv]; [now left|right; apply in_app_iff; auto]. }
  cbn [length] in *. rewrite app_length. simpl. lia.
Qed.

Lemma perm_mid (A M Z : list nat) x : Permutation (A ++ x :: M ++ Z) (M ++ (A ++ x :: Z)).
Proof.
  rewrite <- (Permutation_middle A (M ++ Z)), <- (Permutation_middle A Z), <- Permutation_middle.
  apply perm_skip. rewrite !app_assoc. apply Permutation_app_tail, Permutation_app_comm.
Qed.

(** ** one replacement *)
Lemma replace_shape g r t A x M y B int : closed_tour g r 1 t -> t = A ++ x :: M ++ y :: B ->
  exists vs Z, A ++ x :: M ++ Z = r :: vs /\ NoDup (r :: vs) /\
    t = (A ++ x :: M ++ Z) ++ [r] /\
    A ++ (x :: int ++ [y]) ++ B = (A ++ x :: int ++ Z) ++ [r] /\
    (B <> [] -> Z <> []).
Proof.
  intros (vs & Et & Hnd & _ & Hw & Hf) E.
  assert (HZ : exists Z, t = (A ++ x :: M ++ Z) ++ [r] /\
    A ++ (x :: int ++ [y]) ++ B = (A ++ x :: int ++ Z) ++ [r] /\
    (B <> [] -> Z <> [])).
  { destruct (exists_last (l := y :: B)) as (Z & z & EZ); [discriminate|].
    assert (z = r).
    { rewrite E, EZ in Et.
      replace (A ++ x :: M ++ Z ++ [z]) with ((A ++ x :: M ++ Z) ++ [z]) in Et
        by (rewrite <- app_assoc; cbn [app]; rewrite <- app_assoc; reflexivity).
      change (r :: vs ++ [r]) with ((r :: vs) ++ [r]) in Et. now apply app_inj_tail in Et. }
    subst z. exists Z. split; [|split].
    - rewrite E, EZ. rewrite <- !app_assoc. cbn [app]. rewrite <- !app_assoc. reflexivity.
    - cbn [app]. replace ((int ++ [y]) ++ B) with (int ++ y :: B) by (rewrite <- app_assoc; reflexivity).
      rewrite EZ. rewrite <- !app_assoc. cbn [app]. rewrite <- !app_assoc. reflexivity.
    - intros HB ->. simpl in EZ. inversion EZ. congruence. }
  destruct HZ as (Z & EZ & EZ' & HZ).
  exists vs, Z. split; [|auto].
  rewrite EZ in Et. change (r :: vs ++ [r]) with ((r :: vs) ++ [r]) in Et.
  now apply app_inj_tail in Et.
Qed.

Lemma replace_tour_closed g r t A x M y B int : closed_tour g r 1 t -> t = A ++ x :: M ++ y :: B ->
  (A <> [] \/ B <> []) -> int <> [] -> NoDup int -> (forall v, In v int -> ~ In v t) ->
  is_walk g (x :: int ++ [y]) -> Forall (fun v => v < gn g) (x :: int ++ [y]) ->
  closed_tour g r 2 (A ++ (x :: int ++ [y]) ++ B).
Proof.
  intros Ht E HAB Hne Hndi Hd Hwp Hfp.
  destruct (replace_shape g r t A x M y B int Ht E) as (vs & Z & Erv & Hnd & EZ & EZ' & HZ).
  destruct Ht as (_ & _ & _ & _ & Hw & Hf).
  pose proof (perm_mid A M Z x) as Hperm.
  pose proof (perm_mid A int Z x) as Hperm'.
  assert (HndZ : NoDup (A ++ x :: int ++ Z)).
  { apply (Permutation_NoDup (Permutation_sym Hperm')). apply NoDup_app_iff.
    rewrite <- Erv in Hnd. apply (Permutation_NoDup Hperm) in Hnd.
    apply NoDup_app_iff in Hnd as (_ & Hnd & _). split; [auto|]. split; [auto|].
    intros v Hv Hin. apply (Hd v Hv). rewrite EZ. apply in_app_iff. left.
    apply (Permutation_in _ (Permutation_sym Hperm)). apply in_app_iff; auto. }
  assert (Hhd : exists vs', A ++ x :: int ++ Z = r :: vs').
  { destruct A as [|a A]; simpl in Erv; inversion Erv; subst; simpl; eauto. }
  destruct Hhd as (vs' & Evs').
  exists vs'. split; [rewrite EZ', Evs'; reflexivity|].
    split; [now rewrite <- Evs'|].
    split.
    { assert (Hlen : length (A ++ x :: int ++ Z) = S (length vs')) by (rewrite Evs'; reflexivity).
      rewrite app_length in Hlen. cbn [length] in Hlen. rewrite app_length in Hlen.
      assert (1 <= length int) by (destruct int; [congruence|simpl; lia]).
      assert (1 <= length A + length Z).
      { destruct HAB as [HA|HB].
        - destruct A; [congruence|simpl; lia].
        - specialize (HZ HB). destruct Z; [congruence|simpl; lia]. }
      lia. }
    rewrite E in Hw, Hf.
    split.
    + cbn [app].
      apply is_walk_split in Hw as [W1 W2].
      rewrite app_comm_cons in W2. apply is_walk_split in W2 as [_ W3].
      apply is_walk_join; auto.
      rewrite <- app_assoc. cbn [app]. rewrite app_comm_cons. apply is_walk_join; auto.
    + apply Forall_app in Hf as [F1 F2]. inversion F2 as [|? ? _ F3]; subst.
      apply Forall_app in F3 as [_ F4]. inversion F4 as [|? ? _ F5]; subst.
      apply Forall_app. split; auto. apply Forall_app. auto.
Qed.

Lemma replace_tour g p r t A x M y B int : closed_tour g r 1 t -> t = A ++ x :: M ++ y :: B ->
  (A <> [] \/ B <> []) -> int <> [] -> NoDup int -> (forall v, In v int -> ~ In v t) ->
  is_walk g (x :: int ++ [y]) -> Forall (fun v => v < gn g) (x :: int ++ [y]) ->
  increases_prize p (x :: M ++ [y]) (x :: int ++ [y]) ->
  let t' := A ++ (x :: int ++ [y]) ++ B in
  closed_tour g r 2 t' /\
  (forall z, tour_prize p t z -> exists z', tour_prize p t' z' /\ (z < z')%Z).
Proof.
  intros Ht E HAB Hne Hndi Hd Hwp Hfp Hinc t'. split.
  - eapply replace_tour_closed; eauto.
  - destruct (replace_shape g r t A x M y B int Ht E) as (vs & Z & Erv & Hnd & EZ & EZ' & _).
    pose proof (perm_mid A M Z x) as Hperm.
    pose proof (perm_mid A int Z x) as Hperm'.
    intros z Hz. unfold tour_prize in *. unfold t'.
    rewrite EZ in Hz. rewrite removelast_snoc in Hz.
    apply (prize_sum_perm _ _ _ _ Hperm) in Hz.
    apply prize_sum_app_inv in Hz as (zM & zR & HzM & HzR & ->).
    destruct Hinc as (ip & ep & Hip & Hep & Hlt).
    apply prize_sum_cons_inv in Hip as (px & i1 & Hpx & Hi1 & ->).
    apply prize_sum_app_inv in Hi1 as (i2 & i3 & Hi2 & Hi3 & ->).
    apply prize_sum_cons_inv in Hep as (px' & e1 & Hpx' & He1 & ->).
    apply prize_sum_app_inv in He1 as (e2 & e3 & He2 & He3 & ->).
    assert (px = px') by congruence. subst px'.
    rewrite (prize_sum_fun _ _ _ _ Hi3 He3) in Hlt.
    rewrite (prize_sum_fun _ _ _ _ Hi2 HzM) in Hlt.
    exists (e2 + zR)%Z. split; [|lia].
    rewrite EZ', removelast_snoc.
    apply (prize_sum_perm _ _ _ _ (Permutation_sym Hperm')). now apply prize_sum_app.
Qed.

(** both loops splice the path in the same way *)
Lemma swap_until g r t A x M y B int k : closed_tour g r 1 t -> length t = S k ->
  t = A ++ x :: M ++ y :: B -> S (length M) < k -> int <> [] ->
  (forall v, In v int -> ~ In v t) ->
  swap_paths_in_tour t (x :: int ++ [y]) (length A) ((length A + S (length M)) mod k)
   = Ok (A ++ (x :: int ++ [y]) ++ B).
Proof.
  intros Ht Hl E Hk Hne Hd.
  assert (Hlen : S k = length A + S (length M + S (length B))).
  { rewrite <- Hl, E, app_length. cbn [length]. rewrite app_length. reflexivity. }
  destruct (lt_dec (length A + S (length M)) k) as [Hlt|Hge].
  - rewrite Nat.mod_small by lia. rewrite E. rewrite swap_forward. reflexivity.
  - assert (EB : length B = 0) by lia. destruct B; [|simpl in EB; lia]. cbn [length] in Hlen.
    replace (length A + S (length M)) with k by lia. rewrite Nat.mod_same by lia.
    destruct Ht as (vs & Et & Hnd & _).
    destruct A as [|a A]; [simpl in Hlen; lia|].
    assert (a = r) by (rewrite E in Et; simpl in Et; inversion Et; auto). subst a.
    assert (y = r /\ ~ In r (x :: M)).
    { rewrite E in Et.
      replace ((r :: A) ++ x :: M ++ [y]) with (((r :: A) ++ x :: M) ++ [y]) in Et
        by (rewrite <- app_assoc; reflexivity).
      change (r :: vs ++ [r]) with ((r :: vs) ++ [r]) in Et.
      apply app_inj_tail in Et as [Et ->]. split; auto.
      rewrite <- Et in Hnd. apply NoDup_app_iff in Hnd as (_ & _ & Hn).
      apply Hn. now left. }
    destruct H as [-> Hnr].
    replace (x :: int ++ [r]) with ((x :: int) ++ r :: []) by reflexivity.
    assert (Hri : ~ In r (x :: int)).
    { intros [H|H]; [apply Hnr; now left|]. apply (Hd r H). rewrite E. simpl. auto. }
    rewrite E.
    change (length (r :: A)) with (S (length A)).
    rewrite (swap_backward r A A x (M ++ [r]) (x :: int) [] 0); auto; [|lia].
    cbn [app]. rewrite app_nil_r. reflexivity.
Qed.

Section Ext.
Context (g : graph) (c p : list Z) (r : nat) (C P : Z).
Context (Hg : graph_ok g) (Hmax : (Z.of_nat (gn g) <= int_max)%Z).
Context (Hc : costs_within g c (- C) C) (Hp : prizes_within g p 0 P).
Context (HC : (0 <= C)%Z) (HP : (0 <= P)%Z).
Context (HLC : (2 * (Z.of_nat (S (gn g)) * C) <= int_max)%Z).
Context (HLP : (2 * (Z.of_nat (S (gn g)) * P) <= int_max)%Z).

Lemma Hp' : prizes_within g p (- P) P.
Proof. destruct Hp as [H1 H2]. split; auto. eapply Forall_impl; [|exact H2]. simpl. lia. Qed.

Let fitsL := fits g (S (gn g)).

Lemma fits_total_prize w : fitsL w -> exists z, total_prize p w = Ok z /\ prize_sum p w z.
Proof.
  intros H. destruct (fits_vals g c p C P (S (gn g)) Hc Hp' HC HP HLC HLP w H) as (z & _ & E & Hz & _).
  eauto.
Qed.

Lemma cands_depth2_ok t x y : Forall (fun v => v < gn g) t -> x < gn g -> y < gn g ->
  exists cs, cands_depth2 g t x y = Ok cs /\ Forall (good_cand g t x y) cs.
Proof.
  intros Hf Hx Hy. unfold cands_depth2.
  destruct (neighbor_intersection_ok g x y Hx Hy) as (l & E & Hl). rewrite E. cbn [bind].
  eexists; split; [reflexivity|]. apply Forall_forall. intros path Hin.
  apply in_map_iff in Hin as (u & <- & Hu). apply filter_In in Hu as [Hu Hn].
  destruct (Hl u Hu) as [H1 H2]. apply negb_true_iff, memb_not_In in Hn.
  exists [u]. split; [reflexivity|]. split; [discriminate|].
  split; [repeat constructor; simpl; tauto|].
  split; [intros v [->|[]]; auto|].
  pose proof (is_edge_range g x u Hg H1) as [_ Hur].
  split; [|repeat constructor; auto].
  repeat constructor; auto. now apply is_edge_sym.
Qed.

Lemma cands_deep_ok t internal x y depth : Forall (fun v => v < gn g) t -> In x t -> In y t ->
  fitsL internal -> (2 < depth)%Z ->
  exists cs, cands_deep g p t internal x y depth = Ok cs /\ Forall (good_cand g t x y) cs.
Proof.
  intros Hf Hx Hy Hi Hdep. rewrite Forall_forall in Hf.
  assert (Hxr : x < gn g) by auto. assert (Hyr : y < gn g) by auto.
  unfold cands_deep. unfold num_vertices.
  destruct (mark_tour (gn g) t) as (m0 & E0 & Hl0 & Ht0 & Hf0); [now apply Forall_forall|].
  rewrite E0. cbn [bind].
  destruct (bfs_ok g m0 x Hg Hl0 Hxr (repeat 0 (gn g)) (depth - 1)) as (m1 & par & E1 & Hpost);
    [apply repeat_length|auto|].
  rewrite E1. cbn [bind]. rewrite adjacent_ok by auto. cbn [bind].
  apply foldM_inv with (P := fun _ acc => Forall (good_cand g t x y) acc); [constructor|].
  intros done v rest acc En Hacc.
  destruct (memb v t) eqn:Ev; [eauto|]. apply memb_not_In in Ev.
  assert (Hyv : is_edge g y v).
  { apply nbrs_In. rewrite En. apply in_app_iff; simpl; auto. }
  pose proof (is_edge_range g y v Hg Hyv) as [_ Hvr].
  destruct Hpost as (Hlm & Hpost').
  destruct (vget_ok m1 v) as (b & Eb & Enb); [lia|]. rewrite Eb. cbn [bind].
  destruct b; [|eauto].
  assert (Hnew : new m0 x m1 v) by (right; split; [exact Enb|apply Hf0; auto]).
  destruct (path_in_tree_ok g m0 x Hl0 Hxr (depth - 1) m1 par (conj Hlm Hpost') v Hnew)
    as (pre & Ep & Hw & Hnd & Hhd & Hok & _ & _ & Hrange).
  rewrite Ep. cbn [bind].
  assert (Hgc : good_cand g t x y ((pre ++ [v]) ++ [y])).
  { destruct pre as [|a pre].
    - simpl in Hhd. inversion Hhd; subst. contradiction.
    - simpl in Hhd. inversion Hhd; subst a. cbn [app tl] in *.
      exists (pre ++ [v]). split; [reflexivity|].
      split; [destruct pre; discriminate|].
      inversion Hnd as [|? ? Hnx Hnd']; subst. split; [auto|].
      split.
      { intros w Hw' Hin. specialize (Hok w Hw'). specialize (Ht0 w Hin).
        unfold is_true_at, is_false_at in *. congruence. }
      split.
      + change (is_walk g ((x :: pre ++ [v]) ++ [y])).
        replace ((x :: pre ++ [v]) ++ [y]) with ((x :: pre) ++ v :: [y])
          by (simpl; rewrite <- app_assoc; reflexivity).
        apply is_walk_join; auto. constructor; [now apply is_edge_sym|constructor].
      + change (Forall (fun v => v < gn g) ((x :: pre ++ [v]) ++ [y])).
        apply Forall_app. split; [exact Hrange|repeat constructor; auto]. }
  destruct (fits_total_prize _ (good_cand_fits g t x y _ Hx Hgc)) as (ep & Eep & _).
  destruct (fits_total_prize _ Hi) as (ip & Eip & _).
  rewrite Eep. cbn [bind]. rewrite Eip. cbn [bind].
  eexists; split; [reflexivity|]. destruct (ip <? ep)%Z; auto.
  apply Forall_app. auto.
Qed.

(** what a feasible extension found at index [i] is *)
Definition ext_at (t : list nat) (step i : nat) (path : list nat) : Prop :=
  exists A x M y B int, t = A ++ x :: M ++ y :: B /\ length A = i /\ S (length M) = step /\
    path = x :: int ++ [y] /\ int <> [] /\ NoDup int /\ (forall v, In v int -> ~ In v t) /\
    is_walk g path /\ Forall (fun v => v < gn g) path /\
    increases_prize p (x :: M ++ [y]) path.

Lemma prize_three a b u mid z1 z2 : prize_sum p (a :: mid ++ [b]) z1 -> In u mid ->
  prize_sum p [a; u; b] z2 -> (z2 <= z1)%Z.
Proof.
  intros H1 Hin H2. apply in_split in Hin as (m1 & m2 & ->).
  assert (Hperm : Permutation (a :: (m1 ++ u :: m2) ++ [b]) ([a; u; b] ++ m1 ++ m2)).
  { cbn [app]. apply perm_skip. rewrite <- app_assoc. cbn [app].
    rewrite <- Permutation_middle. apply perm_skip.
    rewrite app_assoc. rewrite <- Permutation_cons_append. reflexivity. }
  apply (prize_sum_perm _ _ _ _ Hperm) in H1.
  apply prize_sum_app_inv in H1 as (y1 & y2 & K1 & K2 & ->).
  rewrite (prize_sum_fun _ _ _ _ K1 H2).
  destruct Hp as [_ Hpf].
  assert (0 <= y2)%Z.
  { refine (prize_sum_nonneg _ _ _ _ K2). eapply Forall_impl; [|exact Hpf]. simpl. lia. }
  lia.
Qed.

Lemma at_ok t k step depth i : closed_tour g r 1 t -> length t = S k ->
  1 <= step -> step < k -> i < k ->
  exists o, find_extension_path_at g t c p r step depth i = Ok o /\
    match o with None => True | Some (_, path) => i + step <= k /\ ext_at t step i path end.
Proof.
  intros Ht Hl Hs1 Hsk Hi.
  destruct (closed_len g r 1 t Ht) as (k' & Hl' & Hm & Hkn & Hk & H0).
  assert (k' = k) by lia. subst k'.
  assert (Hrange : Forall (fun v => v < gn g) t) by (destruct Ht as (vs & ? & ? & ? & ? & ?); auto).
  unfold find_extension_path_at. rewrite Hl. replace (S k - 1) with k by lia.
  set (j := (i + step) mod k).
  assert (Hj : j < k) by (apply Nat.mod_upper_bound; lia).
  destruct (nth_error t i) as [vi|] eqn:Evi; [|apply nth_error_None in Evi; lia].
  destruct (nth_error t j) as [vj|] eqn:Evj; [|apply nth_error_None in Evj; lia].
  rewrite (it_get_some _ _ _ Evi), (it_get_some _ _ _ Evj). cbn [bind].
  assert (Hvi : In vi t) by (eapply nth_error_In; eauto).
  assert (Hvj : In vj t) by (eapply nth_error_In; eauto).
  assert (Hvir : vi < gn g) by (rewrite Forall_forall in Hrange; auto).
  assert (Hvjr : vj < gn g) by (rewrite Forall_forall in Hrange; auto).
  destruct (get_subpath_ok t k i j Hl ltac:(lia) ltac:(congruence) Hi Hj) as (w & Ew & Hlw & Hnw).
  assert (Hstep : (j + k - i) mod k = step).
  { unfold j. destruct (le_lt_dec k (i + step)) as [H|H].
    - rewrite (mod_sub_wrap (i + step)) by lia. rewrite Nat.mod_small by lia. lia.
    - rewrite (Nat.mod_small (i + step)) by lia. rewrite (mod_sub_wrap _) by lia. lia. }
  rewrite Hstep in Hlw. rewrite Ew. cbn [bind].
  destruct (subpath_walk g r 1 t k i w Ht Hl Hi Hnw) as [Hww Hwf].
  assert (Hwfits : fitsL w) by (split; [auto|split; [auto|lia]]).
  assert (Hchoose : forall cands, Forall fitsL cands ->
    exists o, (do best <- choose_extension g c p cands w;
       match best with
       | None => Ok None
       | Some (idx, loss) => do path <- vget cands idx; Ok (Some (loss, path))
       end) = Ok o /\
       match o with None => True | Some (_, path) => In path cands /\ increases_prize p w path end).
  { intros cands Hcs.
    destruct (choose_ok g c p w C P (S (gn g)) Hc Hp' HC HP HLC HLP cands Hwfits Hcs)
      as (best & Eb & Hb).
    rewrite Eb. cbn [bind]. destruct best as [[idx loss]|]; [|exists None; auto].
    destruct Hb as (cand & H1 & H2 & _). rewrite (vget_some _ _ _ H1). cbn [bind].
    exists (Some (loss, cand)). split; [reflexivity|]. split; [eapply nth_error_In; eauto|].
    eapply loss_of_increases; eauto. }
  destruct (le_lt_dec (i + step) k) as [Hle|Hgt].
  - (* the root is not inside *)
    destruct (split2 t i (i + step) ltac:(lia) ltac:(lia)) as (A & x & M & y & B & Et & HA & HM).
    replace (i + step - i) with step in HM by lia.
    assert (Hseg : forall q, q <= step -> nth_error (x :: M ++ [y]) q = nth_error t (i + q)).
    { intros q Hq. rewrite Et, nth_error_app2 by lia. rewrite HA.
      replace (i + q - i) with q by lia.
      replace (x :: M ++ y :: B) with ((x :: M ++ [y]) ++ B)
        by (cbn [app]; rewrite <- app_assoc; reflexivity).
      rewrite nth_error_app1; auto. cbn [length]. rewrite app_length. simpl. lia. }
    assert (Emod : forall q, q <= step -> nth_error t ((i + q) mod k) = nth_error t (i + q)).
    { intros q Hq. destruct (Nat.eq_dec (i + q) k) as [E|E].
      - rewrite E, Nat.mod_same by lia. congruence.
      - rewrite Nat.mod_small by lia. auto. }
    assert (Ewseg : w = x :: M ++ [y]).
    { apply nth_error_ext'.
      - cbn [length]. rewrite app_length. simpl. lia.
      - intros q Hq. rewrite Hnw by auto. rewrite Hseg by lia. apply Emod. lia. }
    assert (vi = x).
    { specialize (Hseg 0 ltac:(lia)). rewrite Nat.add_0_r in Hseg. simpl in Hseg. congruence. }
    assert (vj = y).
    { specialize (Hseg step ltac:(lia)). rewrite <- Emod in Hseg by lia. fold j in Hseg.
      rewrite Evj in Hseg. replace step with (S (length M)) in Hseg by lia.
      cbn [nth_error] in Hseg. rewrite nth_error_app2, Nat.sub_diag in Hseg by lia.
      simpl in Hseg. congruence. }
    subst vi vj. rewrite Ewseg in *. rewrite is_internal_ok. cbn [bind].
    assert (Hroot : memb r M = false).
    { apply memb_not_In. intros Hin. apply In_nth_error in Hin as [q Hq].
      pose proof (nth_error_Some_lt _ _ _ Hq) as Hql.
      apply (closed_root_pos g r 1 t (i + S q) k Ht Hl); try lia.
      rewrite <- Hseg by lia. cbn [nth_error]. rewrite nth_error_app1 by lia. exact Hq. }
    rewrite Hroot. rewrite andb_false_r. cbn [negb]. rewrite andb_true_r.
    assert (Hcands : exists cands,
       (if (depth =? 2)%Z then cands_depth2 g t x y
        else if (2 <? depth)%Z then cands_deep g p t (x :: M ++ [y]) x y depth else Ok []) = Ok cands
       /\ Forall (good_cand g t x y) cands).
    { destruct (depth =? 2)%Z; [now apply cands_depth2_ok|].
      destruct (Z.ltb_spec 2 depth); [now apply cands_deep_ok|]. exists []. auto. }
    destruct Hcands as (cands & Ec & Hgc). rewrite Ec. cbn [bind].
    destruct (Hchoose cands) as (o & Eo & Ho).
    { eapply Forall_impl; [|exact Hgc]. intros path. now apply good_cand_fits. }
    exists o. split; [exact Eo|]. destruct o as [[loss path]|]; auto.
    destruct Ho as [Hin Hinc]. split; [auto|].
    rewrite Forall_forall in Hgc. destruct (Hgc path Hin) as (int & Ep & Hne & Hnd & Hd & Hw & Hf).
    exists A, x, M, y, B, int. repeat (split; [assumption|]). assumption.
  - (* the root is inside: no candidate increases the prize *)
    assert (Hnr : nth_error w (k - i) = Some r).
    { rewrite Hnw by lia. replace (i + (k - i)) with k by lia.
      rewrite Nat.mod_same by lia. exact H0. }
    rewrite (internal_nth w (k - i) r Hnr) by lia. cbn [bind negb].
    rewrite andb_true_r, andb_false_r.
    assert (Hcands : exists cands,
       (if (depth =? 2)%Z then cands_root g r vi vj
        else if (depth =? 2)%Z then cands_depth2 g t vi vj else Ok []) = Ok cands
       /\ Forall fitsL cands /\ (forall path, In path cands -> path = [vi; r; vj])).
    { destruct (depth =? 2)%Z; [|exists []; repeat split; auto; intros path []].
      assert (Hr : r < gn g).
      { rewrite Forall_forall in Hrange. apply Hrange. eapply nth_error_In; eauto. }
      unfold cands_root. destruct (edge_total g vi r Hvir) as [o1 E1]. rewrite E1. cbn [bind].
      destruct o1 as [e1|]; [|exists []; repeat split; auto; intros path []].
      destruct (edge_total g r vj Hr) as [o2 E2]. rewrite E2. cbn [bind].
      destruct o2 as [e2|]; [|exists []; repeat split; auto; intros path []].
      exists [[vi; r; vj]]. split; [auto|]. split; [|intros path [<-|[]]; auto].
      repeat constructor; auto; try (simpl; lia).
      - exists e1. apply edge_Some in E1. apply E1.
      - exists e2. apply edge_Some in E2. apply E2. }
    destruct Hcands as (cands & Ec & Hcf & Hcs). rewrite Ec. cbn [bind].
    destruct (Hchoose cands Hcf) as (o & Eo & Ho). exists o. split; [exact Eo|].
    destruct o as [[loss path]|]; auto. exfalso. destruct Ho as [Hin Hinc].
    rewrite (Hcs path Hin) in Hinc. destruct Hinc as (ip & ep & Hip & Hep & Hlt).
    (* w = vi :: mid ++ [vj] with r in mid *)
    destruct w as [|a w']; [simpl in Hlw; lia|].
    destruct (exists_last (l := w')) as (mid & b & ->); [intros ->; simpl in Hlw; lia|].
    cbn [length] in Hlw. rewrite app_length in Hlw. simpl in Hlw.
    assert (Ea : a = vi).
    { specialize (Hnw 0 ltac:(simpl; lia)). rewrite Nat.add_0_r, Nat.mod_small in Hnw by lia.
      simpl in Hnw. congruence. }
    assert (Eb : b = vj).
    { specialize (Hnw step ltac:(cbn [length]; rewrite app_length; simpl; lia)). fold j in Hnw.
      rewrite Evj in Hnw. replace step with (S (length mid)) in Hnw by lia.
      cbn [nth_error] in Hnw. rewrite nth_error_app2, Nat.sub_diag in Hnw by lia.
      simpl in Hnw. congruence. }
    subst a b.
    assert (Hmid : In r mid).
    { destruct (k - i) as [|q] eqn:Eq; [lia|]. cbn [nth_error] in Hnr.
      rewrite nth_error_app1 in Hnr by lia. eapply nth_error_In; eauto. }
    pose proof (prize_three vi vj r mid ip ep Hip Hmid Hep). lia.
Qed.

Lemma find_all_ok t k step depth : closed_tour g r 1 t -> length t = S k ->
  1 <= step -> step < k ->
  exists l, find_extension_paths g t c p r step depth = Ok l /\
    forall i loss path, nth_error l i = Some (Some (loss, path)) -> i + step <= k /\ ext_at t step i path.
Proof.
  intros Ht Hl H1 H2. unfold find_extension_paths. rewrite Hl. replace (S k - 1) with k by lia.
  destruct (mapM_exists (find_extension_path_at g t c p r step depth)
    (fun i o => match o with None => True | Some (_, path) => i + step <= k /\ ext_at t step i path end)
    (seq 0 k)) as (l & E & HF).
  - intros i Hi. apply in_seq in Hi. now apply at_ok; auto; lia.
  - exists l. split; [auto|]. intros i loss path Hn.
    destruct (Forall2_nth _ _ _ _ _ HF Hn) as (i' & Hi' & H).
    pose proof (nth_error_Some_lt _ _ _ Hi') as Hlt. rewrite seq_length in Hlt.
    assert (i' = i).
    { apply nth_error_nth with (d := 0) in Hi'. rewrite seq_nth in Hi' by auto. simpl in Hi'. auto. }
    subst i'. exact H.
Qed.

Lemma step_lt_size_spec step (t : list nat) k : length t = S k -> k <= gn g ->
  (int_min <= step <= int_max)%Z -> step <> 0%Z ->
  step_lt_size step (length t) = true -> (1 <= step)%Z /\ Z.to_nat step < k.
Proof.
  intros Hl Hk Hs Hs0. unfold step_lt_size, int_min, int_max in *. rewrite Hl.
  rewrite Z.mod_small by lia.
  destruct (Z.ltb_spec step 0) as [H|H]; intros E; apply Z.ltb_lt in E; lia.
Qed.

Lemma step_lt_size_complete step (t : list nat) k : length t = S k -> k <= gn g ->
  (1 <= step)%Z -> Z.to_nat step < k -> step_lt_size step (length t) = true.
Proof.
  intros Hl Hk Hs Hk'. unfold step_lt_size, int_max in *. rewrite Hl.
  rewrite Z.mod_small by lia. destruct (Z.ltb_spec step 0) as [H|H]; apply Z.ltb_lt; lia.
Qed.

(** the guarantee: closed tour again; the prize strictly increased unless unchanged *)
Definition extends (t t' : list nat) : Prop :=
  t' = t \/
  closed_tour g r 2 t' /\
  (forall z, tour_prize p t z -> exists z', tour_prize p t' z' /\ (z < z')%Z).

Lemma extends_trans t t1 t2 : extends t t1 -> extends t1 t2 -> extends t t2.
Proof.
  intros [->|[H1 H2]] [->|[H3 H4]]; [left; auto|right; auto|right; auto|].
  right. split; auto. intros z Hz. destruct (H2 z Hz) as (z1 & Hz1 & L1).
  destruct (H4 z1 Hz1) as (z2 & Hz2 & L2). exists z2. split; auto. lia.
Qed.

Lemma ext_replace t k step i path : closed_tour g r 1 t -> length t = S k -> step < k ->
  ext_at t step i path ->
  exists t', swap_paths_in_tour t path i (i + step) = Ok t' /\
             swap_paths_in_tour t path i ((i + step) mod k) = Ok t' /\
             closed_tour g r 2 t' /\
             (forall z, tour_prize p t z -> exists z', tour_prize p t' z' /\ (z < z')%Z).
Proof.
  intros Ht Hl Hk (A & x & M & y & B & int & E & HA & HM & Ep & Hne & Hnd & Hd & Hw & Hf & Hinc).
  assert (Hlen : S k = length A + S (length M + S (length B))).
  { rewrite <- Hl, E, app_length. cbn [length]. rewrite app_length. reflexivity. }
  exists (A ++ path ++ B). subst i step. split; [|split].
  - rewrite E. apply swap_forward.
  - rewrite Ep. apply (swap_until g r); auto.
  - rewrite Ep in *. apply replace_tour with (M := M) (t := t); auto.
    destruct A; [|left; discriminate]. destruct B; [|right; discriminate]. simpl in Hlen. lia.
Qed.

Lemma path_extension_loop_ok step depth :
  (int_min <= step <= int_max)%Z -> step <> 0%Z ->
  forall rem first avg t, closed_tour g r 1 t ->
  exists t', path_extension_loop rem first avg g t c p r step depth = Ok t' /\ extends t t'.
Proof.
  intros Hs Hs0. induction rem as [|rem IH]; intros first avg t Ht; cbn [path_extension_loop].
  - exists t. split; [auto|left; auto].
  - destruct (step_lt_size step (length t)) eqn:El; [|exists t; split; [auto|left; auto]].
    destruct (closed_len g r 1 t Ht) as (k & Hl & _ & Hkn & _ & _).
    destruct (step_lt_size_spec step t k Hl Hkn Hs Hs0 El) as [Hs1 Hsk].
    destruct t as [|t0 tt]; [simpl in Hl; lia|]. set (t := t0 :: tt) in *.
    destruct (find_all_ok t k (Z.to_nat step) depth Ht Hl ltac:(lia) Hsk) as (l & E & Hall).
    rewrite E. cbn [bind].
    destruct (index_of_smallest_loss l) as [[idx [loss path]]|] eqn:Ei; [|exists t; split; [auto|left; auto]].
    apply index_of_smallest_loss_nth in Ei. destruct (Hall _ _ _ Ei) as [_ Hext].
    destruct (ext_replace t k (Z.to_nat step) idx path Ht Hl Hsk Hext) as (t1 & Sw & _ & Hc1 & Hp1).
    match goal with |- context [if ?b then _ else _] => destruct b end;
      [|exists t; split; [auto|left; auto]].
    rewrite Sw. cbn [bind].
    match goal with |- context [path_extension_loop rem ?f ?a g t1 c p r step depth] =>
      destruct (IH f a t1 (closed_weaken g r 2 1 t1 ltac:(lia) Hc1)) as (t2 & E2 & H2) end.
    exists t2. split; [exact E2|]. eapply extends_trans; [|exact H2]. right. auto.
Qed.

Lemma path_extension_until_loop_ok prize quota step depth :
  (int_min <= step <= int_max)%Z -> step <> 0%Z ->
  forall rem t, closed_tour g r 1 t ->
  exists t', path_extension_until_loop rem g t c p r prize quota step depth = Ok t' /\ extends t t'.
Proof.
  intros Hs Hs0. induction rem as [|rem IH]; intros t Ht; cbn [path_extension_until_loop];
    (destruct (prize <? quota)%Z; [|exists t; split; [auto|left; auto]]);
    (destruct (step_lt_size step (length t)) eqn:El; [|exists t; split; [auto|left; auto]]).
  - exists t; split; [auto|left; auto].
  - destruct (closed_len g r 1 t Ht) as (k & Hl & _ & Hkn & _ & _).
    destruct (step_lt_size_spec step t k Hl Hkn Hs Hs0 El) as [Hs1 Hsk].
    destruct t as [|t0 tt]; [simpl in Hl; lia|]. set (t := t0 :: tt) in *.
    destruct (find_all_ok t k (Z.to_nat step) depth Ht Hl ltac:(lia) Hsk) as (l & E & Hall).
    rewrite E. cbn [bind].
    destruct (index_of_smallest_loss l) as [[idx [loss path]]|] eqn:Ei; [|exists t; split; [auto|left; auto]].
    apply index_of_smallest_loss_nth in Ei. destruct (Hall _ _ _ Ei) as [_ Hext].
    destruct (ext_replace t k (Z.to_nat step) idx path Ht Hl Hsk Hext) as (t1 & _ & Sw & Hc1 & Hp1).
    rewrite Hl. replace (S k - 1) with k by lia. rewrite Sw. cbn [bind].
    destruct (IH t1 (closed_weaken g r 2 1 t1 ltac:(lia) Hc1)) as (t2 & E2 & H2).
    exists t2. split; [exact E2|]. eapply extends_trans; [|exact H2]. right. auto.
Qed.

Lemma path_extension_ok step depth t : closed_tour g r 1 t ->
  (int_min <= step <= int_max)%Z -> step <> 0%Z ->
  exists t', path_extension g t c p r step depth = Ok t' /\ extends t t'.
Proof. intros. unfold path_extension. now apply path_extension_loop_ok. Qed.

Lemma path_extension_until_ok quota step depth t : closed_tour g r 1 t ->
  (int_min <= step <= int_max)%Z -> step <> 0%Z ->
  exists t', path_extension_until g t c p r quota step depth = Ok t' /\ extends t t' /\
    (forall z, tour_prize p t z -> (quota <= z)%Z -> t' = t).
Proof.
  intros Ht Hs Hs0. unfold path_extension_until.
  destruct (closed_len g r 1 t Ht) as (k & Hl & Hk1 & Hkn & _ & _).
  pose proof Hp' as [Hpl Hpf].
  destruct (total_prize_of_tour_ok p P t Hpf) as (z & E & Hz); auto.
  - destruct Ht as (vs & ? & ? & ? & ? & ?). now rewrite Hpl.
  - intros ->. simpl in Hl. lia.
  - rewrite Hl. assert (Z.of_nat (S k) * P <= Z.of_nat (S (gn g)) * P)%Z
      by (apply Z.mul_le_mono_nonneg_r; lia).
    assert (0 <= Z.of_nat (S k) * P)%Z by (apply Z.mul_nonneg_nonneg; lia). lia.
  - rewrite E. cbn [bind].
    destruct (path_extension_until_loop_ok z quota step depth Hs Hs0 (num_vertices g) t Ht)
      as (t' & E' & Hx).
    exists t'. split; [exact E'|]. split; [exact Hx|].
    intros z' Hz' Hq. assert (z' = z) by (eapply prize_sum_fun; eauto). subst z'.
    destruct (num_vertices g); cbn [path_extension_until_loop] in E';
      (destruct (Z.ltb_spec z quota) as [H|H]; [lia|]); congruence.
Qed.
End Ext.

(** ** forms used in the property file *)
Lemma get_subpath_past_end (t : list nat) i j :
  (length t + j < i -> get_subpath_of_cycle t i j = Throw LengthError) /\
  (length t < i <= length t + j -> get_subpath_of_cycle t i j = UB IterPastEnd) /\
  (t <> [] -> get_subpath_of_cycle t (length t) 0 = Ok []).
Proof.
  unfold get_subpath_of_cycle. split; [|split].
  - intros H. destruct (Z.leb_spec (Z.of_nat j - Z.of_nat i + 1) 0) as [_|H']; [|lia].
    destruct (Z.ltb_spec (Z.of_nat (length t) - Z.of_nat i + Z.of_nat j) 0); [reflexivity|lia].
  - intros H. destruct (Z.leb_spec (Z.of_nat j - Z.of_nat i + 1) 0) as [H'|H'].
    + destruct (Z.ltb_spec (Z.of_nat (length t) - Z.of_nat i + Z.of_nat j) 0); [lia|].
      destruct (Nat.ltb_spec (length t) i); [reflexivity|lia].
    + destruct (Z.ltb_spec (Z.of_nat j - Z.of_nat i + 1) 0); [lia|].
      destruct (Nat.ltb_spec (length t) i); [reflexivity|lia].
  - intros Hne. destruct t as [|a t]; [congruence|].
    destruct (Z.leb_spec (Z.of_nat 0 - Z.of_nat (length (a :: t)) + 1) 0) as [_|H]; [|cbn [length] in H; lia].
    replace (Z.of_nat (length (a :: t)) - Z.of_nat (length (a :: t)) + Z.of_nat 0)%Z with 0%Z by lia.
    cbn [Z.ltb Z.compare]. rewrite Nat.ltb_irrefl. reflexivity.
Qed.

Lemma get_subpath_walk_nodup g r m t i j : closed_tour g r m t ->
  i < length t - 1 -> j < length t - 1 ->
  exists w u v, get_subpath_of_cycle t i j = Ok w /\ is_walk g w /\ NoDup w /\
    nth_error t i = Some u /\ nth_error t j = Some v /\
    hd_error w = Some u /\ last w u = v /\ (forall x, In x w -> In x t).
Proof.
  intros Ht Hi Hj. destruct (closed_len g r m t Ht) as (k & Hl & Hm & Hkn & Hk & H0).
  rewrite Hl in Hi, Hj. replace (S k - 1) with k in * by lia.
  destruct (get_subpath_ok t k i j Hl ltac:(lia) ltac:(congruence) Hi Hj) as (w & Ew & Hlw & Hnw).
  destruct (nth_error t i) as [u|] eqn:Eu; [|apply nth_error_None in Eu; lia].
  destruct (nth_error t j) as [v|] eqn:Ev; [|apply nth_error_None in Ev; lia].
  pose proof (Nat.mod_upper_bound (j + k - i) k ltac:(lia)) as Hb.
  exists w, u, v. split; [auto|]. split; [now apply (subpath_walk g r m t k i w)|].
  split.
  { apply NoDup_nth_error. intros a b Ha Hab. rewrite Hnw in Hab by auto.
    assert (Hb' : b < length w).
    { apply nth_error_Some. rewrite <- Hab. apply nth_error_Some.
      pose proof (Nat.mod_upper_bound (i + a) k ltac:(lia)). lia. }
    rewrite Hnw in Hab by auto.
    assert (Hnd : NoDup (firstn k t)).
    { destruct Ht as (vs & -> & Hnd & _). change (r :: vs ++ [r]) with ((r :: vs) ++ [r]) in *.
      rewrite app_length in Hl. simpl in Hl. replace k with (length (r :: vs)) by (simpl; lia).
      rewrite firstn_app, Nat.sub_diag, firstn_O, firstn_all, app_nil_r. auto. }
    assert (Hfn : forall q, q < k -> nth_error (firstn k t) q = nth_error t q).
    { intros q Hq. rewrite <- (firstn_skipn k t) at 2. rewrite nth_error_app1; auto.
      rewrite firstn_length. lia. }
    pose proof (Nat.mod_upper_bound (i + a) k ltac:(lia)) as Ba.
    pose proof (Nat.mod_upper_bound (i + b) k ltac:(lia)) as Bb.
    rewrite <- !Hfn in Hab by auto.
    apply (proj1 (NoDup_nth_error _) Hnd) in Hab; [|rewrite firstn_length; lia].
    assert (forall q, q < k -> (i + q) mod k = if i + q <? k then i + q else i + q - k) as Hmq.
    { intros q Hq. destruct (Nat.ltb_spec (i + q) k); [now apply Nat.mod_small|].
      apply mod_sub_wrap; lia. }
    rewrite !Hmq in Hab by lia.
    destruct (Nat.ltb_spec (i + a) k), (Nat.ltb_spec (i + b) k); lia. }
  split; [auto|]. split; [auto|].
  split.
  { specialize (Hnw 0 ltac:(lia)). rewrite Nat.add_0_r, Nat.mod_small in Hnw by lia.
    destruct w; simpl in *; congruence. }
  split.
  { specialize (Hnw (length w - 1) ltac:(lia)).
    replace ((i + (length w - 1)) mod k) with j in Hnw.
    - rewrite Ev in Hnw. destruct (exists_last (l := w)) as (w' & z & E); [intros ->; simpl in Hlw; lia|].
      subst w. rewrite last_last. rewrite app_length in Hnw. simpl in Hnw.
      rewrite nth_error_app2 in Hnw by lia. replace (length w' + 1 - 1 - length w') with 0 in Hnw by lia.
      simpl in Hnw. congruence.
    - rewrite Hlw. replace (S ((j + k - i) mod k) - 1) with ((j + k - i) mod k) by lia.
      rewrite Nat.add_mod_idemp_r by lia. replace (i + (j + k - i)) with (j + 1 * k) by lia.
      rewrite Nat.mod_add by lia. now rewrite Nat.mod_small. }
  intros x Hx. apply In_nth_error in Hx as [q Hq]. pose proof (nth_error_Some_lt _ _ _ Hq).
  rewrite Hnw in Hq by auto. eapply nth_error_In; eauto.
Qed.

Lemma swap_closed g r t A x M y B int k :
  closed_tour g r 1 t -> length t = S k -> t = A ++ x :: M ++ y :: B -> S (length M) < k ->
  int <> [] -> NoDup int -> (forall v, In v int -> ~ In v t) ->
  is_walk g (x :: int ++ [y]) -> Forall (fun v => v < gn g) (x :: int ++ [y]) ->
  exists t', swap_paths_in_tour t (x :: int ++ [y]) (length A) (length A + S (length M)) = Ok t' /\
    swap_paths_in_tour t (x :: int ++ [y]) (length A) ((length A + S (length M)) mod k) = Ok t' /\
    t' = A ++ (x :: int ++ [y]) ++ B /\ closed_tour g r 2 t'.
Proof.
  intros Ht Hl E Hk Hne Hnd Hd Hw Hf.
  assert (Hlen : S k = length A + S (length M + S (length B))).
  { rewrite <- Hl, E, app_length. cbn [length]. rewrite app_length. reflexivity. }
  eexists. split; [rewrite E; apply swap_forward|]. split; [now apply (swap_until g r)|].
  split; [reflexivity|]. apply (replace_tour_closed g r t A x M y B int); auto.
  destruct A; [|left; discriminate]. destruct B; [|right; discriminate]. simpl in Hlen. lia.
Qed.

Lemma path_extension_tour g c p r C P :
  graph_ok g -> (Z.of_nat (gn g) <= int_max)%Z ->
  costs_within g c (- C) C -> prizes_within g p 0 P -> (0 <= C)%Z -> (0 <= P)%Z ->
  (2 * (Z.of_nat (S (gn g)) * C) <= int_max)%Z -> (2 * (Z.of_nat (S (gn g)) * P) <= int_max)%Z ->
  forall step depth t z, tour_from g r t -> tour_prize p t z ->
  (int_min <= step <= int_max)%Z -> step <> 0%Z ->
  exists t' z', path_extension g t c p r step depth = Ok t' /\
    tour_from g r t' /\ tour_prize p t' z' /\ (z <= z')%Z.
Proof.
  intros Hg Hm Hc Hp HC HP H1 H2 step depth t z Ht Hz Hs Hs0.
  destruct (path_extension_ok g c p r C P Hg Hm Hc Hp HC HP H1 H2 step depth t)
    as (t' & E & H); auto.
  { now apply closed_weaken with (m := 2); [lia|]. }
  exists t'. destruct H as [->|[H3 H4]].
  - exists z. repeat (split; [assumption|]). lia.
  - destruct (H4 z Hz) as (z' & Hz' & Hlt). exists z'. repeat (split; [assumption|]). lia.
Qed.

Lemma extension_unitary_loss_tour g c p r C P :
  graph_ok g -> (Z.of_nat (gn g) <= int_max)%Z ->
  costs_within g c (- C) C -> prizes_within g p 0 P -> (0 <= C)%Z -> (0 <= P)%Z ->
  (2 * (Z.of_nat (S (gn g)) * C) <= int_max)%Z -> (2 * (Z.of_nat (S (gn g)) * P) <= int_max)%Z ->
  forall t z, tour_from g r t -> tour_prize p t z ->
  exists t' z', extension_unitary_loss g t c p r = Ok t' /\
    tour_from g r t' /\ tour_prize p t' z' /\ (z <= z')%Z.
Proof.
  intros. unfold extension_unitary_loss.
  apply path_extension_tour with (C := C) (P := P); auto; unfold int_min, int_max; lia.
Qed.
