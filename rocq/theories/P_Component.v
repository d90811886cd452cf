(** * P_Component: connected components and component vectors *)
From Coq Require Import Permutation.
From Verif Require Import Base Graph Spec Spec_Cycle M_Walk M_Graph M_Solution.
From Verif Require Import P_Base P_BFS.
Open Scope nat_scope.

(** ** connectivity *)
Lemma connected_trans g u v w : connected g u v -> connected g v w -> connected g u w.
Proof.
  intros H1 H2. induction H2 as [v|v w x H2 IH He]; auto. apply conn_step with w; auto.
Qed.

Lemma connected_edge g u v : is_edge g u v -> connected g u v.
Proof. intros H. eapply conn_step; eauto. constructor. Qed.

Lemma connected_sym g u v : connected g u v -> connected g v u.
Proof.
  induction 1 as [u|u v w H IH He]; [constructor|].
  apply connected_trans with v; auto. apply connected_edge, is_edge_sym; auto.
Qed.

Lemma connected_lt g u v : graph_ok g -> u < gn g -> connected g u v -> v < gn g.
Proof. intros Hg Hu H. induction H; auto. now apply (is_edge_range g v w Hg). Qed.

(** a set closed under adjacency contains the component *)
Lemma connected_closed g (P : nat -> Prop) u v :
  (forall a b, P a -> is_edge g a b -> P b) -> connected g u v -> P u -> P v.
Proof.
  intros Hc H. induction H as [u|u v w H IH He]; auto. intros Hu. apply (Hc v w); auto.
Qed.

(** a connected vertex has a duplicate-free connecting list of vertices *)
Lemma connected_path g u v : graph_ok g -> u < gn g -> connected g u v ->
  exists l, NoDup (l ++ [v]) /\ Forall (fun x => x < gn g) (l ++ [v]) /\
    within g (fun x => x < gn g) u (length l) v /\
    forall a x b, l ++ [v] = a ++ x :: b -> within g (fun x => x < gn g) u (length a) x.
Proof.
  intros Hg Hu H. induction H as [u|u v w H IH He].
  - exists []. cbn [app length]. split; [repeat constructor; auto|]. split; [repeat constructor; auto|].
    split; [constructor|]. intros a x b E. destruct a as [|y a].
    + inversion E; subst. constructor.
    + destruct a; discriminate E.
  - destruct (IH Hu) as (l & Hn & Hf & Hw & Ha).
    destruct (in_dec Nat.eq_dec w (l ++ [v])) as [Hin|Hin].
    + apply in_split in Hin as (a & b & E). exists a.
      assert (E' : l ++ [v] = (a ++ [w]) ++ b) by (rewrite <- app_assoc; exact E).
      split; [|split; [|split]].
      * rewrite E' in Hn. now apply NoDup_app_iff in Hn.
      * rewrite E' in Hf. now apply Forall_app in Hf.
      * apply (Ha a w b); auto.
      * intros a' x b' Ex. apply (Ha a' x (b' ++ b)). rewrite E', Ex, <- app_assoc. reflexivity.
    + exists (l ++ [v]). assert (Hwl : w < gn g) by now apply (is_edge_range g v w Hg).
      assert (Hww : within g (fun x => x < gn g) u (length (l ++ [v])) w).
      { rewrite app_length, Nat.add_1_r. econstructor; eauto. }
      split; [|split; [|split]].
      * apply NoDup_app_iff. split; auto. split; [repeat constructor; auto|].
        intros x Hx [<-|[]]; auto.
      * apply Forall_app. split; auto.
      * exact Hww.
      * intros a x b Ex. destruct b as [|y b] using rev_ind.
        -- apply app_inj_tail in Ex as [<- <-]. exact Hww.
        -- rewrite app_comm_cons, app_assoc in Ex. apply app_inj_tail in Ex as [Ex _].
           apply (Ha a x b Ex).
Qed.

Lemma within_connected g P u d v : within g P u d v -> connected g u v.
Proof. induction 1 as [|d x y H IH He Hy]; [constructor|]. apply conn_step with x; auto. Qed.

Lemma connected_within g u v : graph_ok g -> u < gn g -> connected g u v ->
  exists d, d <= gn g /\ within g (fun x => x < gn g) u d v.
Proof.
  intros Hg Hu H. destruct (connected_path g u v Hg Hu H) as (l & Hn & Hf & Hw & _).
  exists (length l). split; auto.
  pose proof (NoDup_length_le _ _ Hn Hf) as Hl. rewrite app_length in Hl. lia.
Qed.

Lemma within_weaken g (P Q : nat -> Prop) u d v : (forall x, P x -> Q x) ->
  within g P u d v -> within g Q u d v.
Proof. intros H. induction 1 as [|d x y H0 IH He Hy]; [constructor|]. apply within_S with x; auto. Qed.

Lemma nth_error_repeat_inv {A} (a b : A) n i : nth_error (repeat a n) i = Some b -> b = a /\ i < n.
Proof.
  intros H. split.
  - apply nth_error_In in H. now apply repeat_spec in H.
  - apply nth_error_Some_lt in H. now rewrite repeat_length in H.
Qed.

Lemma bfs_connected g v : graph_ok g -> v < gn g -> (Z.of_nat (gn g) <= int_max)%Z ->
  exists mk p, breadth_first_search g v (repeat false (gn g)) (repeat 0 (gn g)) (Z.of_nat (gn g))
     = Ok (mk, p) /\ length mk = gn g /\
    forall w, nth_error mk w = Some true <-> connected g v w.
Proof.
  intros Hg Hv Hmax.
  destruct (bfs_spec g v (repeat false (gn g)) (repeat 0 (gn g)) (Z.of_nat (gn g)) Hg)
    as (m & p & E & Hm & _); auto; try apply repeat_length.
  exists m, p. split; auto.
  assert (Hiff : forall w, nth_error m w = Some true <-> connected g v w).
  { intros w. rewrite Hm. split.
    - intros [H|[->|(d & _ & H)]].
      + apply nth_error_repeat_inv in H as [H _]. discriminate.
      + constructor.
      + eapply within_connected; eauto.
    - intros H. right. right. destruct (connected_within g v w Hg Hv H) as (d & Hd & Hw).
      exists d. split; [lia|]. eapply within_weaken; [|exact Hw].
      intros x Hx. now apply nth_error_repeat. }
  split; auto.
  destruct (bfs_ok g (repeat false (gn g)) v Hg (repeat_length _ _) Hv (repeat 0 (gn g))
    (Z.of_nat (gn g)) (repeat_length _ _) Hmax) as (m' & p' & E' & H').
  rewrite E in E'. inversion E'; subst m' p'. apply H'.
Qed.

(** ** labels *)
Lemma nth_error_combine {A B} (l1 : list A) (l2 : list B) i :
  nth_error (combine l1 l2) i =
  match nth_error l1 i, nth_error l2 i with Some a, Some b => Some (a, b) | _, _ => None end.
Proof.
  revert l2 i. induction l1 as [|a l1 IH]; intros [|b l2] [|i]; cbn; auto.
  destruct (nth_error l1 i); reflexivity.
Qed.

Definition cc_inv (g : graph) (done : list nat) (st : list (option nat) * nat) : Prop :=
  let '(ls, k) := st in
  length ls = gn g /\
  (forall a, In a done -> exists c, nth_error ls a = Some (Some c)) /\
  (forall a c, nth_error ls a = Some (Some c) -> c < k) /\
  (forall a b c, nth_error ls a = Some (Some c) ->
     (nth_error ls b = Some (Some c) <-> connected g a b)) /\
  (forall c, c < k -> exists a, nth_error ls a = Some (Some c)).

Lemma cc_fold g : graph_ok g -> (Z.of_nat (gn g) <= int_max)%Z ->
  exists st, foldM (cc_step g) (vertices g) (repeat None (num_vertices g), 0) = Ok st /\
    cc_inv g (vertices g) st.
Proof.
  intros Hg Hmax. apply (foldM_inv (cc_step g) (cc_inv g)).
  - unfold num_vertices. split; [apply repeat_length|]. split; [intros a []|].
    assert (Hno : forall a c, nth_error (repeat (@None nat) (gn g)) a = Some (Some c) -> False).
    { intros a c H. apply nth_error_repeat_inv in H as [H _]. discriminate. }
    split; [intros a c H; destruct (Hno _ _ H)|].
    split; [intros a b c H; destruct (Hno _ _ H)|]. intros c Hc. lia.
  - intros done v rest [ls k] Ev (Hlen & Hdone & Hk & Hiff & Hused).
    assert (Hv : v < gn g).
    { assert (In v (vertices g)) by (rewrite Ev; apply in_elt). apply in_seq in H. lia. }
    unfold cc_step. cbn [fst snd]. destruct (vget_ok ls v) as (l & El & Nl); [lia|].
    rewrite El. cbn [bind]. destruct l as [c|].
    + eexists. split; [reflexivity|]. split; auto. split.
      { intros a Ha. apply in_app_or in Ha as [Ha|[<-|[]]]; eauto. }
      split; auto.
    + unfold num_vertices. destruct (bfs_connected g v Hg Hv Hmax) as (mk & p & Eb & Hml & Hm).
      rewrite Eb. cbn [bind]. eexists. split; [reflexivity|].
      set (ls' := map (fun lb : option nat * bool => if snd lb then Some k else fst lb) (combine ls mk)).
      assert (Hnew : forall a c, nth_error ls' a = Some (Some c) <->
        (connected g v a /\ c = k) \/ (nth_error ls a = Some (Some c))).
      { intros a c. unfold ls'. rewrite nth_error_map, nth_error_combine.
        destruct (Nat.lt_ge_cases a (gn g)) as [Ha|Ha].
        - destruct (nth_error ls a) as [la|] eqn:Ela; [|apply nth_error_None in Ela; lia].
          destruct (nth_error mk a) as [ma|] eqn:Ema; [|apply nth_error_None in Ema; lia].
          cbn [option_map fst snd]. destruct ma.
          + apply Hm in Ema. split.
            * intros H. inversion H; subst. auto.
            * intros [[_ ->]|H]; auto. inversion H; subst. exfalso.
              assert (Hc : nth_error ls v = Some (Some c)).
              { apply (Hiff a v c Ela). now apply connected_sym. }
              congruence.
          + split; auto. intros [[Hc _]|H]; auto. apply Hm in Hc. congruence.
        - replace (nth_error ls a) with (@None (option nat)) by (symmetry; apply nth_error_None; lia).
          cbn. split; [discriminate|]. intros [[Hc _]|H]; [|discriminate].
          apply connected_lt in Hc; auto. lia. }
      split; [|split; [|split; [|split]]].
      * unfold ls'. rewrite map_length, combine_length. lia.
      * intros a Ha. apply in_app_or in Ha as [Ha|[<-|[]]].
        -- destruct (Hdone a Ha) as [c Hc]. exists c. apply Hnew. auto.
        -- exists k. apply Hnew. left. split; auto. constructor.
      * intros a c H. apply Hnew in H as [[_ ->]|H]; [lia|]. apply Hk in H. lia.
      * intros a b c H. rewrite Hnew. apply Hnew in H as [[Ha ->]|H].
        -- split.
           ++ intros [[Hb _]|Hb].
              ** apply connected_trans with v; auto. now apply connected_sym.
              ** apply Hk in Hb. lia.
           ++ intros Hab. left. split; auto. apply connected_trans with a; auto.
        -- rewrite <- (Hiff a b c H). split; auto. intros [[_ ->]|Hb]; auto.
           apply Hk in H. lia.
      * intros c Hc. destruct (Nat.eq_dec c k) as [->|Hne].
        -- exists v. apply Hnew. left. split; auto. constructor.
        -- destruct (Hused c) as [a Ha]; [lia|]. exists a. apply Hnew. auto.
Qed.

Lemma connected_components_ok g : graph_ok g -> (Z.of_nat (gn g) <= int_max)%Z ->
  exists cs k, connected_components g = Ok (cs, k) /\ length cs = gn g /\
    Forall (fun c => c < k) cs /\
    (forall a b c, nth_error cs a = Some c -> (nth_error cs b = Some c <-> connected g a b)) /\
    (forall c, c < k -> exists a, nth_error cs a = Some c).
Proof.
  intros Hg Hmax. destruct (cc_fold g Hg Hmax) as ([ls k] & E & Hlen & Hall & Hk & Hiff & Hused).
  unfold connected_components. rewrite E. cbn [bind].
  destruct (mapM_exists (fun l : option nat => match l with Some c => Ok c | None => UB Uninit end)
    (fun l c => l = Some c) ls) as (cs & Ecs & Hcs).
  { intros l Hl. apply In_nth_error in Hl as [a Ha].
    pose proof (nth_error_Some_lt _ _ _ Ha) as Hlt.
    destruct (Hall a) as [c Hc]; [apply in_seq; lia|]. rewrite Ha in Hc. inversion Hc; subst.
    exists c. auto. }
  rewrite Ecs. cbn [bind]. exists cs, k. split; auto.
  pose proof (Forall2_length_eq _ _ _ Hcs) as Hl2.
  assert (Hn : forall a c, nth_error cs a = Some c <-> nth_error ls a = Some (Some c)).
  { clear -Hcs. intros a c. revert a. induction Hcs as [|l d ls cs -> _ IH]; intros [|a]; cbn; auto.
    - split; discriminate.
    - split; discriminate.
    - split; intros H; inversion H; auto. }
  split; [lia|]. split.
  - apply Forall_forall. intros c Hc. apply In_nth_error in Hc as [a Ha]. apply Hn in Ha. eauto.
  - split.
    + intros a b c Ha. rewrite Hn. apply Hiff. now apply Hn.
    + intros c Hc. destruct (Hused c Hc) as [a Ha]. exists a. now apply Hn.
Qed.

(** ** component vectors *)
Definition cls (ids vs : list nat) (c : nat) : list nat :=
  filter (fun v => match nth_error ids v with Some d => Nat.eqb d c | None => false end) vs.

Lemma cls_app ids a b c : cls ids (a ++ b) c = cls ids a c ++ cls ids b c.
Proof. apply filter_app. Qed.

Lemma cls_snoc ids a v d c : nth_error ids v = Some d ->
  cls ids (a ++ [v]) c = cls ids a c ++ (if Nat.eqb d c then [v] else []).
Proof.
  intros Nd. rewrite cls_app. f_equal. unfold cls. cbn [filter]. rewrite Nd.
  destruct (Nat.eqb d c); reflexivity.
Qed.

Lemma component_sizes_ok ids k vs : Forall (fun v => v < length ids) vs ->
  Forall (fun c => c < k) ids ->
  exists sz, component_sizes vs k ids = Ok sz /\ length sz = k /\
    forall c, c < k -> nth_error sz c = Some (length (cls ids vs c)).
Proof.
  intros Hvs Hids. unfold component_sizes.
  apply (foldM_inv _ (fun done sz => length sz = k /\
    forall c, c < k -> nth_error sz c = Some (length (cls ids done c)))).
  - split; [apply repeat_length|]. intros c Hc. cbn. now apply nth_error_repeat.
  - intros done v rest sz E [Hl Hn].
    assert (Hv : v < length ids).
    { rewrite Forall_forall in Hvs. apply Hvs. rewrite E. apply in_elt. }
    destruct (vget_ok ids v Hv) as (d & Ed & Nd). rewrite Ed. cbn [bind].
    assert (Hd : d < k).
    { rewrite Forall_forall in Hids. apply Hids. eapply nth_error_In; eauto. }
    rewrite (vget_some _ _ _ (Hn d Hd)). cbn [bind]. rewrite vset_ok by lia.
    eexists. split; [reflexivity|]. split; [now rewrite upd_length|].
    intros c Hc. rewrite upd_nth by lia. rewrite (cls_snoc ids done v d c Nd), app_length.
    destruct (Nat.eqb_spec d c) as [->|Hne]; cbn [length].
    + f_equal. lia.
    + rewrite Hn by auto. f_equal. lia.
Qed.

Lemma upd_app {A} (a : list A) x y r : upd (a ++ x :: r) (length a) y = a ++ y :: r.
Proof. induction a as [|z a IH]; cbn; [reflexivity|]. now rewrite IH. Qed.

Lemma component_vectors_ok g k ids : length ids = gn g -> Forall (fun c => c < k) ids ->
  exists cvs, get_connected_components_vectors g k ids = Ok cvs /\ length cvs = k /\
    forall c, c < k -> nth_error cvs c = Some (cls ids (vertices g) c).
Proof.
  intros Hlen Hids. unfold get_connected_components_vectors.
  assert (Hvs : Forall (fun v => v < length ids) (vertices g)).
  { apply Forall_forall. intros v Hv. apply in_seq in Hv. lia. }
  destruct (component_sizes_ok ids k (vertices g) Hvs Hids) as (sz & Es & Hsl & Hsn).
  rewrite Es. cbn [bind].
  destruct (foldM_inv (place_vertex ids)
    (fun done st => length (fst st) = k /\ length (snd st) = k /\
       forall c, c < k ->
         nth_error (fst st) c = Some (cls ids done c ++
            repeat 0 (length (cls ids (vertices g) c) - length (cls ids done c))) /\
         nth_error (snd st) c = Some (length (cls ids done c)))
    (vertices g) (map (fun k => repeat 0 k) sz, repeat 0 k)) as (st & E & Hst).
  - cbn [fst snd]. split; [now rewrite map_length|]. split; [apply repeat_length|].
    intros c Hc. cbn. rewrite nth_error_map, Hsn by auto. cbn. rewrite Nat.sub_0_r. split; auto.
    now apply nth_error_repeat.
  - intros done v rest [cvs ks] Ev (Hl1 & Hl2 & Hn). cbn [fst snd] in *.
    assert (Hv : v < length ids).
    { rewrite Forall_forall in Hvs. apply Hvs. rewrite Ev. apply in_elt. }
    unfold place_vertex. cbn [fst snd].
    destruct (vget_ok ids v Hv) as (d & Ed & Nd). rewrite Ed. cbn [bind].
    assert (Hd : d < k).
    { rewrite Forall_forall in Hids. apply Hids. eapply nth_error_In; eauto. }
    destruct (Hn d Hd) as [N1 N2].
    rewrite (vget_some _ _ _ N1). cbn [bind]. rewrite (vget_some _ _ _ N2). cbn [bind].
    assert (Hcv : forall c, cls ids (done ++ [v]) c =
       cls ids done c ++ (if Nat.eqb d c then [v] else [])).
    { intros c. now apply cls_snoc. }
    assert (Htot : length (cls ids (vertices g) d) =
       length (cls ids done d) + S (length (cls ids rest d))).
    { rewrite Ev, cls_app, app_length. unfold cls at 2. cbn [filter]. rewrite Nd, Nat.eqb_refl.
      reflexivity. }
    assert (Er : repeat 0 (length (cls ids (vertices g) d) - length (cls ids done d)) =
       0 :: repeat 0 (length (cls ids rest d))).
    { rewrite Htot. replace (length (cls ids done d) + S (length (cls ids rest d)) -
        length (cls ids done d)) with (S (length (cls ids rest d))) by lia. reflexivity. }
    rewrite Er in N1 |- *. rewrite vset_ok by (rewrite app_length; cbn [length]; lia).
    cbn [bind]. rewrite vset_ok by lia. cbn [bind]. rewrite vset_ok by lia. cbn [bind].
    eexists. split; [reflexivity|]. cbn [fst snd]. rewrite !upd_length. split; auto. split; auto.
    intros c Hc. rewrite !upd_nth by lia. rewrite Hcv. destruct (Nat.eqb_spec d c) as [<-|Hne].
    + rewrite upd_app, app_length. cbn [length]. rewrite <- app_assoc. cbn [app]. split.
      * do 4 f_equal. lia.
      * f_equal. lia.
    + rewrite app_nil_r. apply Hn; auto.
  - destruct st as [cvs ks]. rewrite E. cbn [bind]. destruct Hst as (Hl1 & Hl2 & Hn).
    cbn [fst snd] in *. exists cvs. split; auto. split; auto. intros c Hc.
    destruct (Hn c Hc) as [N1 _]. rewrite N1, Nat.sub_diag. cbn. now rewrite app_nil_r.
Qed.

Lemma cls_In ids vs c v : In v (cls ids vs c) <-> In v vs /\ nth_error ids v = Some c.
Proof.
  unfold cls. rewrite filter_In. split; intros [H1 H2]; split; auto.
  - destruct (nth_error ids v); [|discriminate]. apply Nat.eqb_eq in H2. now subst.
  - rewrite H2. apply Nat.eqb_refl.
Qed.

Lemma cls_NoDup ids n c : NoDup (cls ids (seq 0 n) c).
Proof. apply NoDup_filter, seq_NoDup. Qed.

(** ** getNonSingularConnectedComponentVectors *)
Lemma non_singular_count (cvs : list (list nat)) : length (non_singular_ids cvs) =
  length (filter (fun S => Nat.ltb 1 (length S)) cvs).
Proof.
  unfold non_singular_ids.
  assert (H : forall l pre, cvs = pre ++ l ->
    length (filter (fun i => match nth_error cvs i with Some c => Nat.ltb 1 (length c) | None => false end)
      (seq (length pre) (length l))) = length (filter (fun S => Nat.ltb 1 (length S)) l)).
  { induction l as [|c l IH]; intros pre E; [reflexivity|]. cbn [length seq filter].
    assert (nth_error cvs (length pre) = Some c) as ->.
    { rewrite E, nth_error_app2, Nat.sub_diag by lia. reflexivity. }
    specialize (IH (pre ++ [c])). rewrite app_length, Nat.add_1_r in IH.
    destruct (Nat.ltb 1 (length c)); cbn [length]; rewrite IH; auto; rewrite <- app_assoc; exact E. }
  exact (H cvs [] eq_refl).
Qed.

Lemma mapM_vget_firstn {A} (l : list A) k : k <= length l -> mapM (fun i => vget l i) (seq 0 k) = Ok (firstn k l).
Proof.
  assert (H : forall m pre suf, l = pre ++ suf -> m <= length suf ->
    mapM (fun i => vget l i) (seq (length pre) m) = Ok (firstn m suf)).
  { induction m as [|m IH]; intros pre suf E Hm; [reflexivity|].
    destruct suf as [|x suf]; [cbn in Hm; lia|]. cbn [seq mapM firstn].
    assert (vget l (length pre) = Ok x) as ->.
    { unfold vget. rewrite E, nth_error_app2, Nat.sub_diag by lia. reflexivity. }
    cbn [bind]. specialize (IH (pre ++ [x]) suf). rewrite app_length, Nat.add_1_r in IH.
    rewrite IH; [reflexivity|rewrite <- app_assoc; exact E|cbn in Hm; lia]. }
  intros Hk. exact (H k [] l eq_refl Hk).
Qed.

Lemma filter_len {A} (f : A -> bool) l : length (filter f l) <= length l.
Proof. induction l as [|a l IH]; cbn; [lia|]. destruct (f a); cbn; lia. Qed.

Lemma non_singular_exact (cvs : list (list nat)) :
  let big := filter (fun S => Nat.ltb 1 (length S)) cvs in
  get_non_singular_components cvs = Ok (firstn (length big) cvs) /\
  (firstn (length big) cvs = big <->
   exists k, Forall (fun S => 1 < length S) (firstn k cvs) /\ Forall (fun S => length S <= 1) (skipn k cvs)).
Proof.
  intros big. split.
  - unfold get_non_singular_components. rewrite non_singular_count. apply mapM_vget_firstn. apply filter_len.
  - split.
    + intros H. exists (length big). split.
      * rewrite H. apply Forall_forall. intros S HS. apply filter_In in HS as [_ HS]. now apply Nat.ltb_lt.
      * assert (E : big = filter (fun S => Nat.ltb 1 (length S)) (firstn (length big) cvs) ++
                        filter (fun S => Nat.ltb 1 (length S)) (skipn (length big) cvs)).
        { rewrite <- filter_app, firstn_skipn. reflexivity. }
        rewrite H in E.
        assert (Ef : filter (fun S => Nat.ltb 1 (length S)) big = big).
        { unfold big. clear. induction cvs as [|c l IH]; [reflexivity|]. cbn [filter].
          destruct (Nat.ltb 1 (length c)) eqn:Ec; [|exact IH]. cbn [filter]. rewrite Ec. now f_equal. }
        rewrite Ef in E. rewrite <- (app_nil_r big) in E at 1. apply app_inv_head in E.
        apply Forall_forall. intros S HS. destruct (Nat.ltb 1 (length S)) eqn:ES.
        -- assert (In S []) as []. rewrite E. apply filter_In. auto.
        -- apply Nat.ltb_ge in ES. exact ES.
    + intros (k & H1 & H2).
      assert (F1 : forall l, Forall (fun S : list nat => 1 < length S) l -> filter (fun S => Nat.ltb 1 (length S)) l = l).
      { induction 1 as [|S l HS _ IH]; [reflexivity|]. cbn [filter]. apply Nat.ltb_lt in HS. rewrite HS. now f_equal. }
      assert (F2 : forall l, Forall (fun S : list nat => length S <= 1) l -> filter (fun S => Nat.ltb 1 (length S)) l = []).
      { induction 1 as [|S l HS _ IH]; [reflexivity|]. cbn [filter]. apply Nat.ltb_ge in HS. rewrite HS. exact IH. }
      assert (E : big = firstn k cvs).
      { unfold big. rewrite <- (firstn_skipn k cvs) at 1. rewrite filter_app, (F1 _ H1), (F2 _ H2). apply app_nil_r. }
      rewrite E at 1. rewrite firstn_length, E.
      destruct (Nat.le_gt_cases k (length cvs)).
      * now rewrite Nat.min_l by lia.
      * rewrite Nat.min_r by lia. rewrite !firstn_all2 by lia. reflexivity.
Qed.
