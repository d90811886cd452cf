(** * P_SplitMap: the maps of disjoint-path costs and disjoint paths *)
From Coq Require Import Lia.
From Verif Require Import P_CostCover P_Dijkstra Base P_Base Graph Spec Spec_Cover Spec_Python Spec_Rename Spec_Suurballe M_Python M_PyCycle M_Suurballe M_DisjointMap Spec_Split P_Python P_Suurballe P_SuurFinal P_PyHeur P_Split.
Open Scope nat_scope.

Lemma dset_In {A} (d : list (nat * A)) k a k' b : NoDup (map fst d) ->
  (entry (dset d k a) k' b <-> (k' = k /\ b = a) \/ (k' <> k /\ entry d k' b)).
Proof.
  unfold entry. induction d as [|(k0, a0) d IH]; intros N; cbn.
  - split; [intros [E|[]]; inversion E; auto|]. intros [(-> & ->)|(_ & [])]. auto.
  - inversion N as [|? ? NI N']; subst. destruct (Nat.eqb_spec k k0) as [->|NE]; cbn.
    + split.
      * intros [E|I]; [inversion E; auto|]. right. split; [|auto]. intros ->. apply NI. apply in_map_iff. exists (k0, b). auto.
      * intros [(-> & ->)|(NE & [E|I])]; [auto|inversion E; congruence|auto].
    + rewrite (IH N'). split.
      * intros [E|[H|(H1 & H2)]]; [inversion E; subst; right; auto|auto|auto].
      * intros [H|(H1 & [E|I])]; [auto|auto|auto].
Qed.

Lemma dset_keys {A} (d : list (nat * A)) k a v : In v (map fst (dset d k a)) <-> v = k \/ In v (map fst d).
Proof.
  induction d as [|(k0, a0) d IH]; cbn; [intuition congruence|]. destruct (Nat.eqb_spec k k0) as [->|NE]; cbn; [intuition congruence|].
  rewrite IH. intuition.
Qed.

Lemma dset_NoDup {A} (d : list (nat * A)) k a : NoDup (map fst d) -> NoDup (map fst (dset d k a)).
Proof.
  induction d as [|(k0, a0) d IH]; intros N; cbn; [repeat constructor; intros []|]. inversion N as [|? ? NI N']; subst.
  destruct (Nat.eqb_spec k k0) as [->|NE]; cbn; [constructor; assumption|]. constructor; [|auto].
  rewrite dset_keys. intros [E|I]; [congruence|contradiction].
Qed.

Lemma labeled_map_ok {A} N T s (value : nat -> res A) :
  (forall x, In x (t_nodes T) -> is_tail N x = true -> exists l, dget (s_lab s) x = Some l /\ (l = true -> exists a, value x = Ok a)) ->
  (forall x y, In x (t_nodes T) -> In y (t_nodes T) -> is_tail N x = true -> is_tail N y = true -> original N x = original N y -> x = y) ->
  exists m, labeled_map N T s value = Ok m /\ NoDup (map fst m) /\
    forall k a, entry m k a <-> exists x, In x (t_nodes T) /\ is_tail N x = true /\ dget (s_lab s) x = Some true /\ original N x = k /\ value x = Ok a.
Proof.
  intros H INJ. unfold labeled_map.
  assert (X : forall l m0 (done : list nat), incl (done ++ l) (t_nodes T) -> NoDup (map fst m0) ->
    (forall k a, entry m0 k a <-> exists x, In x done /\ is_tail N x = true /\ dget (s_lab s) x = Some true /\ original N x = k /\ value x = Ok a) ->
    exists m, foldM (fun m v => if is_tail N v then do l0 <- dfetch (s_lab s) v; if (l0 : bool) then do a <- value v; Ok (dset m (original N v) a) else Ok m else Ok m) l m0 = Ok m /\
      NoDup (map fst m) /\ forall k a, entry m k a <-> exists x, In x (done ++ l) /\ is_tail N x = true /\ dget (s_lab s) x = Some true /\ original N x = k /\ value x = Ok a).
  { induction l as [|x l IH]; intros m0 done IN ND SP.
    - exists m0. split; [reflexivity|]. split; [exact ND|]. rewrite app_nil_r. exact SP.
    - assert (Ix : In x (t_nodes T)) by (apply IN, in_app_iff; cbn; auto).
      assert (IN' : incl ((done ++ [x]) ++ l) (t_nodes T)) by (rewrite <- app_assoc; exact IN).
      replace (done ++ x :: l) with ((done ++ [x]) ++ l) by (rewrite <- app_assoc; reflexivity).
      cbn [foldM]. destruct (is_tail N x) eqn:TX.
      + destruct (H x Ix TX) as (b & LX & VX). unfold dfetch at 1. rewrite LX. cbn [bind]. destruct b.
        * destruct (VX eq_refl) as (a & EA). rewrite EA. cbn [bind]. apply IH; [exact IN'|apply dset_NoDup; exact ND|].
          intros k b. rewrite (dset_In m0 _ _ _ _ ND). rewrite SP. split.
          -- intros [(-> & ->)|(NE & y & I & TY & LY & OY & VY)]; [exists x; rewrite in_app_iff; cbn; auto 8|].
             exists y. rewrite in_app_iff. auto 8.
          -- intros (y & I & TY & LY & OY & VY). destruct (Nat.eq_dec k (original N x)) as [E|NE].
             ++ left. split; [exact E|]. assert (y = x).
                { apply INJ; auto; [|congruence]. apply IN'. apply in_app_iff. auto. }
                subst y. congruence.
             ++ right. split; [exact NE|]. exists y. apply in_app_iff in I. destruct I as [I|[I|[]]]; [auto 8|]. congruence.
        * apply IH; [exact IN'|exact ND|]. intros k a. rewrite SP. split.
          -- intros (y & I & R). exists y. rewrite in_app_iff. auto.
          -- intros (y & I & TY & LY & R). exists y. apply in_app_iff in I. destruct I as [I|[I|[]]]; [auto 8|]. congruence.
      + apply IH; [exact IN'|exact ND|]. intros k a. rewrite SP. split.
        * intros (y & I & R). exists y. rewrite in_app_iff. auto.
        * intros (y & I & TY & LY & R). exists y. apply in_app_iff in I. destruct I as [I|[I|[]]]; [auto 8|]. congruence. }
  destruct (X (t_nodes T) [] []) as (m & E & ND & SP).
  - intros x I. exact I.
  - constructor.
  - intros k a. split; [intros []|intros (x & [] & _)].
  - exists m. auto.
Qed.

Section Maps.
Variables (g : graph) (c : list Z) (V : list nat) (vt vh : nat -> nat) (D : dgraph) (N : split_names) (depth root : nat)
  (dist : list (nat * Z)) (paths : list (nat * list nat)).
Hypotheses (SG : split_graph g c V vt vh D) (NM : names_ok V vt vh N) (RV : In root V)
  (SD : shortest_distances D (vh root) dist) (SP : shortest_paths D (vh root) dist paths) (DEP : paths_within depth paths).

Lemma dist_names x : In x (map fst dist) -> (exists v, In v V /\ x = vt v) \/ (exists v, In v V /\ x = vh v).
Proof.
  intros I. apply in_map_iff in I. destruct I as ((y, d) & E & I). cbn in E. subst y.
  destruct SD as (_ & _ & H & _). destruct (H x d I) as (p & W). clear H I.
  assert (X : forall a b q z, dwalk D a b q z -> a = b \/ exists u w, arc D u b w).
  { induction 1 as [a|a b e q w z A W' IH]; [auto|]. destruct IH as [<-|IH]; [right; eauto|auto]. }
  destruct (X _ _ _ _ W) as [<-|(u & w & A)]; [right; eauto|]. apply (arc_ends_r g c V vt vh D SG u x w A).
Qed.

Lemma disjoint_maps_ok : exists cm pm, disjoint_maps N depth D (vh root) dist paths = Ok (cm, pm) /\
  NoDup (map fst cm) /\ NoDup (map fst pm) /\
  (forall v pq, entry pm v pq -> exists z, entry cm v z) /\
  (forall v z, entry cm v z -> In v V /\
     (forall P Q z', disjoint_pair D (vh root) (vt v) P Q z' -> (z <= z')%Z) /\
     exists P Q, disjoint_pair D (vh root) (vt v) P Q z /\ entry pm v (original_path N P, original_path N Q)) /\
  (forall v P Q z, In v V -> ~ In v (map fst cm) -> disjoint_pair D (vh root) (vt v) P Q z ->
     exists w, entry dist (vt v) w /\ (2 * w + py_maxsize <= z)%Z).
Proof.
  destruct (suurballe_ok depth D (vh root) dist paths (sg_directed _ _ _ _ _ _ SG) (split_no_loop g c V vt vh D SG)
    (sg_heads _ _ _ _ _ _ SG root RV) (split_split_like g c V vt vh D SG (vh root)) SD SP DEP)
    as (TT & st & ord & ES & SRC & DI & NO & LAB & SO & H).
  assert (TN : forall x, In x (t_nodes TT) -> is_tail N x = true -> exists v, In v V /\ x = vt v).
  { intros x I T. destruct (dist_names x (NO x I)) as [E|(v & Iv & ->)]; [exact E|]. rewrite (nm_head _ _ _ _ NM v Iv) in T. discriminate. }
  assert (INJ : forall x y, In x (t_nodes TT) -> In y (t_nodes TT) -> is_tail N x = true -> is_tail N y = true -> original N x = original N y -> x = y).
  { intros x y Ix Iy Tx Ty E. destruct (TN x Ix Tx) as (v & Iv & ->). destruct (TN y Iy Ty) as (w & Iw & ->).
    rewrite !(nm_original _ _ _ _ NM) in E by assumption. congruence. }
  assert (ORD : forall x, In x (map fst dist) -> dget (s_lab st) x = Some true -> In x ord).
  { intros x I L. destruct (LAB x I) as (_ & E). rewrite E in L. injection L as L. apply memb_In. exact L. }
  assert (VAL : forall v, In v V -> In (vt v) (map fst dist) -> In (vt v) ord -> exists w a P Q, entry dist (vt v) w /\
    edge_disjoint_path_cost TT st (vt v) = Ok (2 * w + a)%Z /\ extract_suurballe_edge_disjoint_paths TT st (t_source TT) (vt v) = Ok (P, Q) /\
    disjoint_pair D (vh root) (vt v) P Q (2 * w + a)%Z /\ (forall P Q z, disjoint_pair D (vh root) (vt v) P Q z -> (2 * w + a <= z)%Z)).
  { intros v Iv I O. destruct (H _ I) as (w & a & W & TD & LA & MX & LB & EX).
    destruct (EX O) as (P & Q & EE & DP); [intros E; apply (sg_apart _ _ _ _ _ _ SG v root Iv RV E)|].
    exists w, a, P, Q. split; [exact W|]. split; [|split; [rewrite SRC; exact EE|split; [exact DP|exact LB]]].
    unfold edge_disjoint_path_cost, dfetch. rewrite TD. cbn [bind]. apply LA in O. destruct (Z.eqb_spec a py_maxsize); [lia|].
    rewrite DI, (dget_some dist (vt v) w (proj1 SD) W). reflexivity. }
  destruct (labeled_map_ok N TT st (edge_disjoint_path_cost TT st)) as (cm & EC & NC & HC).
  { intros x I T. destruct (LAB x (NO x I)) as (_ & E). exists (memb x ord). split; [exact E|]. intros M. apply memb_In in M.
    destruct (TN x I T) as (v & Iv & ->). destruct (VAL v Iv (NO _ I) M) as (w & a & P & Q & _ & EC & _). eauto. }
  { exact INJ. }
  destruct (labeled_map_ok N TT st (fun v => do '(p, q) <- extract_suurballe_edge_disjoint_paths TT st (t_source TT) v; Ok (original_path N p, original_path N q)))
    as (pm & EP & NP & HP).
  { intros x I T. destruct (LAB x (NO x I)) as (_ & E). exists (memb x ord). split; [exact E|]. intros M. apply memb_In in M.
    destruct (TN x I T) as (v & Iv & ->). destruct (VAL v Iv (NO _ I) M) as (w & a & P & Q & _ & _ & EE & _). rewrite EE. cbn [bind]. eauto. }
  { exact INJ. }
  exists cm, pm. split.
  { unfold disjoint_maps, vertex_disjoint_cost_map, undirected_vertex_disjoint_paths_map. rewrite ES. cbn [bind]. rewrite EC. cbn [bind].
    rewrite EP. reflexivity. }
  split; [exact NC|]. split; [exact NP|]. split; [|split].
  - intros v pq E. apply HP in E. destruct E as (x & I & T & L & O & _). destruct (TN x I T) as (u & Iu & ->).
    destruct (VAL u Iu (NO _ I) (ORD _ (NO _ I) L)) as (w & a & P & Q & _ & EC' & _). exists (2 * w + a)%Z. apply HC. exists (vt u). auto 8.
  - intros v z E. apply HC in E. destruct E as (x & I & T & L & O & EZ). destruct (TN x I T) as (u & Iu & ->).
    rewrite (nm_original _ _ _ _ NM u Iu) in O. subst u. split; [exact Iu|].
    destruct (VAL v Iu (NO _ I) (ORD _ (NO _ I) L)) as (w & a & P & Q & _ & EC' & EE & DP & LB).
    rewrite EC' in EZ. injection EZ as <-. split; [exact LB|]. exists P, Q. split; [exact DP|]. apply HP. exists (vt v).
    split; [exact I|]. split; [exact T|]. split; [exact L|]. split; [apply (nm_original _ _ _ _ NM v Iu)|]. rewrite EE. reflexivity.
  - intros v P Q z Iv NI DP. destruct DP as (DJ & N1 & N2 & z1 & z2 & W1 & W2 & EZ).
    destruct SD as (_ & _ & _ & RE). destruct (RE _ _ _ W1) as (d & Ed & _).
    assert (I : In (vt v) (map fst dist)) by (apply in_map_iff; exists (vt v, d); auto).
    destruct (H _ I) as (w & a & W & TD & LA & MX & LB & EX). exists w. split; [exact W|].
    assert (a = py_maxsize).
    { destruct (Z.lt_ge_cases a py_maxsize) as [LT|GE]; [|lia]. exfalso. apply NI. apply LA in LT.
      destruct (VAL v Iv I LT) as (w' & a' & P' & Q' & _ & EC' & _). destruct (LAB _ I) as (IN & LL).
      apply in_map_iff. exists (v, (2 * w' + a')%Z). split; [reflexivity|]. apply HC. exists (vt v).
      split; [exact IN|]. split; [apply (nm_tail _ _ _ _ NM v Iv)|]. split; [rewrite LL; f_equal; apply memb_In; exact LT|].
      split; [apply (nm_original _ _ _ _ NM v Iv)|exact EC']. }
    subst a. apply (LB P Q). split; [exact DJ|]. split; [exact N1|]. split; [exact N2|]. exists z1, z2. auto.
Qed.

Notation sw := (split_walk vt vh).

(** The pair of an entry, read in the undirected graph. *)
Lemma pair_walks v P Q z : In v V -> disjoint_pair D (vh root) (vt v) P Q z ->
  exists p q, P = sw (root :: p) /\ Q = sw (root :: q) /\ p <> [] /\ q <> [] /\ last p root = v /\ last q root = v /\
    incl (root :: p) V /\ incl (root :: q) V /\
    (forall u, In u (removelast p) -> ~ In u (removelast q)) /\ NoDup (removelast p) /\ NoDup (removelast q) /\
    (exists z1 z2, any_cost g c (root :: p) z1 /\ any_cost g c (root :: q) z2 /\ z = (z1 + z2)%Z) /\ p <> q.
Proof.
  clear DEP. intros Iv (DJ & N1 & N2 & z1 & z2 & W1 & W2 & ->).
  destruct (split_walk_inv g c V vt vh D SG _ _ _ _ W1 v Iv eq_refl) as (H1 & _). destruct (H1 root RV eq_refl) as (p & NP & LP & -> & AP).
  destruct (split_walk_inv g c V vt vh D SG _ _ _ _ W2 v Iv eq_refl) as (H2 & _). destruct (H2 root RV eq_refl) as (q & NQ & LQ & -> & AQ).
  clear H1 H2.
  assert (P2 : 2 <= length (root :: p)) by (destruct p; [congruence|cbn; lia]). assert (Q2 : 2 <= length (root :: q)) by (destruct q; [congruence|cbn; lia]).
  assert (INN : forall u r, r <> [] -> NoDup (walk_edges (sw (u :: r))) -> NoDup (removelast r)).
  { intros u r. revert u. induction r as [|a r IH]; intros u NE ND; [congruence|]. destruct r as [|b r]; [constructor|].
    change (sw (u :: a :: b :: r)) with (vh u :: vt a :: sw (a :: b :: r)) in ND.
    change (NoDup ((vh u, vt a) :: (vt a, vh a) :: walk_edges (sw (a :: b :: r)))) in ND.
    inversion ND as [|? ? _ ND1]; subst. inversion ND1 as [|? ? NI ND2]; subst.
    change (removelast (a :: b :: r)) with (a :: removelast (b :: r)). constructor; [|apply (IH a); [discriminate|exact ND2]].
    intros I. apply NI. apply (split_edges vt vh (b :: r) a); [discriminate|]. right. exists a. auto. }
  exists p, q. split; [reflexivity|]. split; [reflexivity|]. split; [exact NP|]. split; [exact NQ|]. split; [exact LP|]. split; [exact LQ|].
  split; [apply (walk_in_V g c V vt vh D SG _ _ AP P2)|]. split; [apply (walk_in_V g c V vt vh D SG _ _ AQ Q2)|].
  split.
  { intros u I J. apply (DJ (vt u, vh u)); (apply split_edges; [assumption|]); right; exists u; auto. }
  split; [apply (INN root); assumption|]. split; [apply (INN root); assumption|]. split; [eauto 6|].
  intros ->. destruct q as [|b q]; [congruence|]. apply (DJ (vh root, vt b)); cbn; destruct q; left; reflexivity.
Qed.
End Maps.

Lemma split_maps depth g c V vt vh D N root dist paths : split_call g c V vt vh D N root dist paths -> paths_within depth paths -> costs_from c 0 ->
  exists cm pm, disjoint_maps N depth D (vh root) dist paths = Ok (cm, pm) /\
    NoDup (map fst cm) /\ NoDup (map fst pm) /\ (forall v, In v (map fst cm) <-> In v (map fst pm)) /\
    (forall v z, entry cm v z -> In v V /\ exists p q, entry pm v (p, q) /\ incl p V /\ incl q V /\ apart_inside g c root v p q z /\
       (v <> root -> (forall p' q' z', vertex_disjoint g c root v p' q' z' -> (z <= z')%Z) /\
          (costs_from c 1 -> vertex_disjoint g c root v p q z))) /\
    (forall v p q z, ~ In v (map fst cm) -> v <> root -> vertex_disjoint g c root v p q z -> (py_maxsize <= z)%Z).
Proof.
  intros [SG NM RV SD SP] DEP NN.
  destruct (disjoint_maps_ok g c V vt vh D N depth root dist paths SG NM RV SD SP DEP) as (cm & pm & E & N1 & N2 & K & H1 & H2).
  exists cm, pm. split; [exact E|]. split; [exact N1|]. split; [exact N2|].
  split.
  { intros v. split; intros I; apply in_map_iff in I; destruct I as ((u, a) & EE & I); cbn in EE; subst u.
    - destruct (H1 v a I) as (_ & _ & P & Q & _ & J). apply in_map_iff. exists (v, (original_path N P, original_path N Q)). auto.
    - destruct (K v a I) as (z & J). apply in_map_iff. exists (v, z). auto. }
  split.
  - intros v z I. destruct (H1 v z I) as (Iv & LB & P & Q & DP & J). split; [exact Iv|].
    destruct (pair_walks g c V vt vh D root SG RV v P Q z Iv DP) as (p & q & -> & -> & NP & NQ & LP & LQ & VP & VQ & DJ & M1 & M2 & (z1 & z2 & A1 & A2 & EZ) & NE).
    assert (P2 : 2 <= length (root :: p)) by (destruct p; [congruence|cbn; lia]). assert (Q2 : 2 <= length (root :: q)) by (destruct q; [congruence|cbn; lia]).
    rewrite (nm_path _ _ _ _ NM _ VP P2), (nm_path _ _ _ _ NM _ VQ Q2) in J.
    exists (root :: p), (root :: q). split; [exact J|]. split; [exact VP|]. split; [exact VQ|]. split.
    { destruct (exists_last NP) as (p' & x & ->). destruct (exists_last NQ) as (q' & y & ->). rewrite last_last in LP, LQ. subst x y.
      rewrite removelast_last in DJ, M1. rewrite removelast_last in DJ, M2. exists p', q', z1, z2. split; [reflexivity|]. split; [reflexivity|]. split; [congruence|]. auto 8. }
    intros NR. split.
    + intros p' q' z' VD. apply (LB (split_walk vt vh p') (split_walk vt vh q')). apply (disjoint_of_vertex g c V vt vh D SG); auto.
    + intros POS.
      assert (CYC : forall x r y, dwalk D x x r y -> 2 <= length r -> (0 < y)%Z).
      { intros x r y. apply (positive_cycle g c V vt vh D SG). intros e w EW. specialize (POS e w EW). lia. }
      destruct (cheapest_simple D (vh root) (vt v) _ _ z CYC DP) as (S1 & S2); [intros P' Q' z' DP'; apply (LB P' Q'); exact DP'|].
      destruct (vertex_of_disjoint g c V vt vh D SG root v _ _ z RV Iv (fun e => NR (eq_sym e)) DP S1 S2) as (p' & q' & E1 & E2 & V1 & V2 & L1 & L2 & VD).
      assert (root :: p = p') by (rewrite <- (nm_path _ _ _ _ NM _ VP P2), E1; apply (nm_path _ _ _ _ NM _ V1 L1)).
      assert (root :: q = q') by (rewrite <- (nm_path _ _ _ _ NM _ VQ Q2), E2; apply (nm_path _ _ _ _ NM _ V2 L2)).
      subst p' q'. exact VD.
  - intros v p q z NI NR VD. pose proof (disjoint_of_vertex g c V vt vh D SG root v p q z VD (fun e => NR (eq_sym e))) as DP.
    assert (Iv : In v V).
    { destruct VD as (L & _ & _ & _ & _ & _ & z1 & z2 & W & _). destruct (leads_cons _ _ _ L (fun e => NR (eq_sym e))) as (p' & -> & NP & <-).
      apply (walk_in_V g c V vt vh D SG _ _ W); [destruct p'; [congruence|cbn; lia]|]. right.
      destruct (exists_last NP) as (r & y & ->). rewrite last_last. apply in_app_iff. cbn. auto. }
    destruct (H2 v _ _ z Iv NI DP) as (w & W & LE). destruct SD as (_ & _ & HW & _). destruct (HW _ _ W) as (r & DW).
    pose proof (dwalk_nonneg' g c V vt vh D SG _ _ _ _ NN DW). lia.
Qed.

Lemma any_cost_nonneg g c w z : costs_from c 0 -> any_cost g c w z -> (0 <= z)%Z.
Proof. intros NN. induction 1 as [u|u v w e x z J X W IH]; [lia|]. specialize (NN _ _ X). lia. Qed.

Lemma split_tour_bounds depth g c V vt vh D N root dist paths cm pm d : split_call g c V vt vh D N root dist paths -> paths_within depth paths -> costs_from c 0 ->
  disjoint_maps N depth D (vh root) dist paths = Ok (cm, pm) ->
  (forall t z v x, tour_from g root t -> any_cost g c t z -> In v t -> v <> root -> entry cm v x -> (x <= z)%Z) /\
  (prizes_given g (filter (fun kx => negb (Nat.eqb (fst kx) root)) cm) d -> tour_bounds g c root d).
Proof.
  intros SC DEP NN E. destruct (split_maps depth g c V vt vh D N root dist paths SC DEP NN) as (cm' & pm' & E' & _ & _ & _ & H & _).
  rewrite E in E'. injection E' as <- <-.
  assert (B : forall t z v x, tour_from g root t -> any_cost g c t z -> In v t -> v <> root -> entry cm v x -> (x <= z)%Z).
  { intros t z v x T A I NR EN. destruct (tour_is_pair g c root t z v T A I NR) as (p & q & VD).
    destruct (H v x EN) as (_ & p' & q' & _ & _ & _ & _ & LB). destruct (LB NR) as (LB' & _). apply (LB' p q z VD). }
  split; [exact B|]. intros (L & G1 & G2) t z v x T A I EN.
  pose proof (any_cost_nonneg g c t z NN A) as NZ.
  destruct (in_dec Nat.eq_dec v (map fst (filter (fun kx : nat * Z => negb (Nat.eqb (fst kx) root)) cm))) as [J|J].
  - apply in_map_iff in J. destruct J as ((k & y) & EK & J). cbn in EK. subst k.
    destruct (G1 _ _ J) as (_ & EY). rewrite EN in EY. injection EY as <-. apply filter_In in J. destruct J as (J & NR). cbn in NR.
    apply Bool.negb_true_iff, Nat.eqb_neq in NR. exact (B t z v x T A I NR J).
  - assert (IE : In v (ends (ge g))).
    { assert (X : forall w y, any_cost g c w y -> 2 <= length w -> forall u, In u w -> In u (ends (ge g))).
      { induction 1 as [u|u u' w e y y' JJ X W IH]; intros LL; [cbn in LL; lia|]. intros a Ia.
        assert (IU : In u (ends (ge g)) /\ In u' (ends (ge g))).
        { destruct JJ as [JJ|JJ]; apply nth_error_In in JJ; split; apply in_flat_map; eexists; (split; [exact JJ|cbn; auto]). }
        destruct Ia as [<-|Ia]; [apply IU|]. destruct w as [|b w]; [destruct Ia as [<-|[]]; apply IU|]. apply IH; [cbn; lia|exact Ia]. }
      apply (X t z A); [|exact I]. destruct T as (vs & -> & _ & LV & _). cbn. rewrite app_length. cbn. lia. }
    rewrite G2 in EN; [injection EN as <-; exact NZ|exact IE|]. intros y Y. apply J. apply in_map_iff. exists (v, y). auto.
Qed.

Lemma any_cost_app g c a x b z1 z2 : any_cost g c (a ++ [x]) z1 -> any_cost g c (x :: b) z2 -> any_cost g c (a ++ x :: b) (z1 + z2)%Z.
Proof.
  revert z1. induction a as [|u a IH]; intros z1 W1 W2.
  - inversion W1; subst. exact W2.
  - destruct a as [|v a].
    + inversion W1 as [|? ? ? e y z' J X W']; subst. inversion W'; subst. cbn. replace (y + 0 + z2)%Z with (y + z2)%Z by lia.
      apply (ac_cons g c u x b e); assumption.
    + inversion W1 as [|? ? ? e y z' J X W']; subst. specialize (IH _ W' W2). cbn in IH |- *. rewrite <- Z.add_assoc.
      apply (ac_cons g c u v (a ++ x :: b) e); assumption.
Qed.

Lemma any_cost_lt g c w z : graph_ok g -> any_cost g c w z -> 2 <= length w -> Forall (fun v => v < gn g) w.
Proof.
  intros GO. induction 1 as [u|u v w e y z J X W IH]; intros L; [cbn in L; lia|].
  assert (B : u < gn g /\ v < gn g) by (destruct J as [J|J]; apply nth_error_In, GO in J; tauto).
  constructor; [tauto|]. destruct w as [|b w]; [repeat constructor; tauto|]. apply IH. cbn. lia.
Qed.

(** The tours that suurballes_heuristic looks at. *)
Lemma split_start_ok depth g c V vt vh D N root dist paths cm pm prize : split_call g c V vt vh D N root dist paths -> paths_within depth paths -> costs_from c 0 ->
  graph_ok g -> NoDup (map fst prize) -> (forall v, In v V -> exists x, entry prize v x) ->
  disjoint_maps N depth D (vh root) dist paths = Ok (cm, pm) ->
  complete_maps prize cm pm /\
  (forall quota v tour cost, feasible_start prize quota cm pm v tour cost -> tour_from g root tour /\ any_cost g c tour cost).
Proof.
  intros SC DEP NN GO NP HP E. destruct (split_maps depth g c V vt vh D N root dist paths SC DEP NN) as (cm' & pm' & E' & N1 & N2 & K & H & _).
  rewrite E in E'. injection E' as <- <-.
  assert (PM : forall v f s, entry pm v (f, s) -> exists z, entry cm v z /\ incl f V /\ incl s V /\ apart_inside g c root v f s z).
  { intros v f s I. assert (J : In v (map fst cm)) by (apply K, in_map_iff; exists (v, (f, s)); auto).
    apply in_map_iff in J. destruct J as ((k & z) & EK & J). cbn in EK. subst k. exists z. split; [exact J|].
    destruct (H v z J) as (_ & p & q & I' & VP & VQ & AI & _).
    assert (X : (p, q) = (f, s)) by (apply (entry_unique pm v); assumption). injection X as <- <-. auto. }
  split.
  - split; [exact NP|]. split; [exact N1|]. split; [exact N2|]. intros v f s I.
    destruct (PM v f s I) as (z & J & VF & VS & (p' & q' & z1 & z2 & -> & -> & _)). split; [|eauto].
    exists (root :: p' ++ [v] ++ rev q' ++ [root]). split; [exists root, v, p', q'; auto|].
    intros u U. apply HP. assert (U' : root = u \/ In u p' \/ v = u \/ In u q' \/ root = u).
    { destruct U as [U|U]; [auto|]. apply in_app_iff in U. destruct U as [U|[U|U]]; [auto|auto|]. cbn [app] in U. apply in_app_iff in U.
      destruct U as [U|[U|[]]]; [apply in_rev in U|]; auto. }
    destruct U' as [<-|[U'|[U'|[U'|U']]]].
    + apply VF. left. reflexivity.
    + apply VF. right. apply in_app_iff. auto.
    + subst u. apply VF. right. apply in_app_iff. cbn. auto.
    + apply VS. right. apply in_app_iff. auto.
    + subst u. apply VF. left. reflexivity.
  - intros quota v tour cost (pr & (f & s & I & TB & _ & EC) & _ & ND).
    destruct (PM v f s I) as (z & J & VF & VS & (p' & q' & z1 & z2 & -> & -> & NE & _ & _ & _ & A1 & A2 & ->)).
    assert (cost = (z1 + z2)%Z) by (apply (entry_unique cm v); assumption). subst cost.
    destruct TB as (s' & t' & a & b & E1 & E2 & ->). injection E1 as <- E1. injection E2 as E2.
    apply app_inj_tail in E1. destruct E1 as (<- & <-). apply app_inj_tail in E2. destruct E2 as (<- & _).
    apply any_cost_rev in A2. cbn in A2. rewrite rev_app_distr in A2. cbn in A2.
    pose proof (any_cost_app g c (root :: p') v (rev q' ++ [root]) z1 z2 A1 A2) as A. cbn [app] in A.
    assert (EQ : root :: p' ++ [v] ++ rev q' ++ [root] = root :: (p' ++ v :: rev q') ++ [root]) by (rewrite <- app_assoc; reflexivity).
    split; [|exact A]. exists (p' ++ v :: rev q'). split; [exact EQ|]. split.
    + rewrite EQ in ND. change (root :: (p' ++ v :: rev q') ++ [root]) with ((root :: p' ++ v :: rev q') ++ [root]) in ND.
      rewrite removelast_last in ND. exact ND.
    + split.
      * rewrite app_length. cbn. rewrite rev_length. destruct p'; cbn; [|lia]. destruct q'; cbn; [congruence|lia].
      * split; [apply (any_cost_walk _ _ _ _ A)|apply (any_cost_lt g c _ _ GO A)]. cbn. rewrite !app_length. cbn. lia.
Qed.

(** *** the entry of the root *)
Lemma any_cost_ends g c r p z : costs_from c 0 -> any_cost g c (r :: p ++ [r]) z -> p <> [] ->
  exists e w e' w' u u', joins g e r u /\ nth_error c e = Some w /\ joins g e' r u' /\ nth_error c e' = Some w' /\ (w + w' <= z)%Z /\ In u p /\ In u' p.
Proof.
  intros NN A NE. destruct p as [|u p]; [congruence|]. cbn in A. inversion A as [|? ? ? e w z' J X W]; subst.
  destruct (exists_last (l := u :: p)) as (q & u' & EQ); [discriminate|].
  change (u :: p ++ [r]) with ((u :: p) ++ [r]) in W. rewrite EQ in *. rewrite <- app_assoc in W. cbn in W.
  destruct (any_cost_split _ _ _ _ _ _ W) as (z1 & z2 & W1 & W2 & ->). inversion W2 as [|? ? ? e' w' z'' J' X' W3]; subst.
  pose proof (any_cost_nonneg g c _ _ NN W1). pose proof (any_cost_nonneg g c _ _ NN W3).
  exists e, w, e', w', u, u'. split; [exact J|]. split; [exact X|]. split; [unfold joins in *; tauto|]. split; [exact X'|]. split; [lia|].
  split; [rewrite <- EQ; left; reflexivity|apply in_app_iff; cbn; auto].
Qed.

Lemma split_root_entry depth g c V vt vh D N root dist paths cm pm e f a b x y : split_call g c V vt vh D N root dist paths -> paths_within depth paths -> costs_from c 0 ->
  disjoint_maps N depth D (vh root) dist paths = Ok (cm, pm) ->
  joins g e root a -> nth_error c e = Some x -> joins g f root b -> nth_error c f = Some y -> a <> b -> (x <= y)%Z ->
  (forall e' v w, joins g e' root v -> nth_error c e' = Some w -> (x <= w)%Z /\ (v <> a -> y <= w)%Z) ->
  (2 * (x + y) < py_maxsize)%Z -> entry cm root (2 * (x + y))%Z.
Proof.
  intros SC DEP NN E JA XA JB XB NAB LE MIN MX. destruct (split_maps depth g c V vt vh D N root dist paths SC DEP NN) as (cm' & pm' & E' & _ & _ & _ & H & _).
  rewrite E in E'. injection E' as <- <-.
  destruct SC as [SG NM RV SD SP].
  destruct (disjoint_maps_ok g c V vt vh D N depth root dist paths SG NM RV SD SP DEP) as (cm' & pm' & E' & _ & _ & _ & H1 & H2).
  rewrite E in E'. injection E' as <- <-.
  destruct (joins_V g c V vt vh D SG _ _ _ JA) as (_ & VA & NRA). destruct (joins_V g c V vt vh D SG _ _ _ JB) as (_ & VB & NRB).
  assert (WK : forall e a x, joins g e root a -> nth_error c e = Some x -> dwalk D (vh root) (vt root) (split_walk vt vh [root; a; root]) (2 * x)%Z).
  { intros e0 a0 x0 J X. replace (2 * x0)%Z with (x0 + (x0 + 0))%Z by lia.
    apply (split_walk_ok g c V vt vh D SG [a0; root] root); [|discriminate].
    apply (ac_cons g c root a0 [root] e0); [exact J|exact X|]. apply (ac_cons g c a0 root [] e0); [unfold joins in *; tauto|exact X|constructor]. }
  assert (DP : disjoint_pair D (vh root) (vt root) (split_walk vt vh [root; a; root]) (split_walk vt vh [root; b; root]) (2 * (x + y))%Z).
  { assert (I1 : vt a <> vt b) by (intros EE; apply (sg_tail_inj _ _ _ _ _ _ SG) in EE; [|assumption..]; contradiction).
    assert (I2 : vh a <> vh b) by (intros EE; apply (sg_head_inj _ _ _ _ _ _ SG) in EE; [|assumption..]; contradiction).
    assert (A1 : forall u v, In u V -> In v V -> vt u <> vh v) by apply SG.
    assert (TA : vt root <> vt a) by (intros EE; apply (sg_tail_inj _ _ _ _ _ _ SG) in EE; [|assumption..]; contradiction).
    assert (TB : vt root <> vt b) by (intros EE; apply (sg_tail_inj _ _ _ _ _ _ SG) in EE; [|assumption..]; contradiction).
    assert (HA : vh root <> vh a) by (intros EE; apply (sg_head_inj _ _ _ _ _ _ SG) in EE; [|assumption..]; contradiction).
    assert (HB : vh root <> vh b) by (intros EE; apply (sg_head_inj _ _ _ _ _ _ SG) in EE; [|assumption..]; contradiction).
    pose proof (A1 a a VA VA). pose proof (A1 b b VB VB). pose proof (A1 a root VA RV). pose proof (A1 b root VB RV). pose proof (A1 a b VA VB). pose proof (A1 b a VB VA). pose proof (A1 root a RV VA). pose proof (A1 root b RV VB). pose proof (A1 root root RV RV).
    split; [|split; [|split]].
    - cbn. intros ee [<-|[<-|[<-|[]]]] [EE|[EE|[EE|[]]]]; injection EE; intros; congruence.
    - apply walk_edges_NoDup. cbn. repeat (constructor; [cbn; intuition congruence|]). constructor.
    - apply walk_edges_NoDup. cbn. repeat (constructor; [cbn; intuition congruence|]). constructor.
    - exists (2 * x)%Z, (2 * y)%Z. split; [apply (WK e); assumption|]. split; [apply (WK f); assumption|lia]. }
  destruct (in_dec Nat.eq_dec root (map fst cm)) as [I|NI].
  - apply in_map_iff in I. destruct I as ((k & z) & EK & I). cbn in EK. subst k.
    destruct (H1 root z I) as (_ & LB & _). pose proof (LB _ _ _ DP) as UB.
    destruct (H root z I) as (_ & p & q & _ & _ & _ & (p' & q' & z1 & z2 & -> & -> & NE & _ & _ & DJ & A1 & A2 & ->) & _).
    assert (NL : forall r z, any_cost g c (root :: r ++ [root]) z -> r <> []).
    { intros r z0 A ->. cbn in A. inversion A as [|? ? ? e0 w0 z0' J0 X0 W0]; subst. destruct (joins_V g c V vt vh D SG _ _ _ J0) as (_ & _ & Q). congruence. }
    destruct (any_cost_ends g c root p' z1 NN A1 (NL _ _ A1)) as (e1 & w1 & e2 & w2 & u1 & u2 & J1 & X1 & J2 & X2 & L1 & I1 & I2).
    destruct (any_cost_ends g c root q' z2 NN A2 (NL _ _ A2)) as (e3 & w3 & e4 & w4 & u3 & u4 & J3 & X3 & J4 & X4 & L2 & I3 & I4).
    destruct (MIN _ _ _ J1 X1) as (M1 & M1'). destruct (MIN _ _ _ J2 X2) as (M2 & M2'). destruct (MIN _ _ _ J3 X3) as (M3 & M3'). destruct (MIN _ _ _ J4 X4) as (M4 & M4').
    assert (w1 + w3 >= x + y)%Z.
    { destruct (Nat.eq_dec u1 a) as [->|NA]; [|specialize (M1' NA); lia]. destruct (Nat.eq_dec u3 a) as [->|NA]; [destruct (DJ a I1 I3)|specialize (M3' NA); lia]. }
    assert (w2 + w4 >= x + y)%Z.
    { destruct (Nat.eq_dec u2 a) as [->|NA]; [|specialize (M2' NA); lia]. destruct (Nat.eq_dec u4 a) as [->|NA]; [destruct (DJ a I2 I4)|specialize (M4' NA); lia]. }
    replace (2 * (x + y))%Z with (z1 + z2)%Z by lia. exact I.
  - destruct (H2 root _ _ _ RV NI DP) as (w & W & LE'). destruct SD as (_ & _ & HW & _). destruct (HW _ _ W) as (r & DW).
    pose proof (dwalk_nonneg' g c V vt vh D SG _ _ _ _ NN DW). lia.
Qed.

(** *** checks for examples *)
Definition arcs_of (D : dgraph) : list (nat * nat * Z) := flat_map (fun '(u, l) => map (fun '(v, w) => (u, v, w)) l) D.
Definition split_arcs (g : graph) (c : list Z) (V : list nat) (vt vh : nat -> nat) : list (nat * nat * Z) :=
  map (fun v => (vt v, vh v, 0%Z)) V ++ flat_map (fun '((a, b), w) => [(vh a, vt b, w); (vh b, vt a, w)]) (combine (ge g) c).
Definition arc_eqb (a b : nat * nat * Z) : bool :=
  andb (andb (Nat.eqb (fst (fst a)) (fst (fst b))) (Nat.eqb (snd (fst a)) (snd (fst b)))) (Z.eqb (snd a) (snd b)).
Definition split_graphb (g : graph) (c : list Z) (V : list nat) (vt vh : nat -> nat) (D : dgraph) : bool :=
  directedb D && forallb (fun '(a, b) => memb a V && memb b V && negb (Nat.eqb a b)) (ge g)
  && forallb (fun v => memb (vh v) (map fst D)) V && nodupb (map vt V ++ map vh V)
  && forallb (fun a => existsb (arc_eqb a) (split_arcs g c V vt vh)) (arcs_of D)
  && forallb (fun a => existsb (arc_eqb a) (arcs_of D)) (split_arcs g c V vt vh).

Lemma arc_eqb_ok a b : arc_eqb a b = true -> a = b.
Proof.
  destruct a as ((a1 & a2) & a3), b as ((b1 & b2) & b3). unfold arc_eqb. cbn. rewrite !Bool.andb_true_iff, !Nat.eqb_eq, Z.eqb_eq.
  intros ((-> & ->) & ->). reflexivity.
Qed.

Lemma arcs_subset l l' : forallb (fun a => existsb (arc_eqb a) l') l = true -> incl l l'.
Proof.
  rewrite forallb_forall. intros H a I. specialize (H a I). apply existsb_exists in H. destruct H as (b & J & E).
  apply arc_eqb_ok in E. subst b. exact J.
Qed.

Lemma arcs_of_In D x y w : In (x, y, w) (arcs_of D) <-> arc D x y w.
Proof.
  unfold arcs_of, arc. rewrite in_flat_map. split.
  - intros ((u & l) & I & J). apply in_map_iff in J. destruct J as ((v & z) & E & J). injection E as <- <- <-. eauto.
  - intros (l & I & J). exists (x, l). split; [exact I|]. apply in_map_iff. exists (y, w). auto.
Qed.

Lemma combine_nth_error {A B} (l : list A) (l' : list B) a b : In (a, b) (combine l l') <-> exists e, nth_error l e = Some a /\ nth_error l' e = Some b.
Proof.
  revert l'. induction l as [|x l IH]; intros l'.
  - split; [intros []|intros (e & E & _); destruct e; discriminate].
  - destruct l' as [|y l']; [split; [intros []|intros (e & _ & E); destruct e; discriminate]|]. cbn. rewrite IH. split.
    + intros [E|(e & E1 & E2)]; [injection E as -> ->; exists 0; auto|exists (S e); auto].
    + intros ([|e] & E1 & E2); cbn in *; [left; congruence|right; eauto].
Qed.

Lemma split_arcs_In g c V vt vh x y w : In (x, y, w) (split_arcs g c V vt vh) <->
    (exists v, In v V /\ x = vt v /\ y = vh v /\ w = 0%Z) \/
    (exists e u v, joins g e u v /\ nth_error c e = Some w /\ x = vh u /\ y = vt v).
Proof.
  unfold split_arcs. rewrite in_app_iff, in_map_iff, in_flat_map. split.
  - intros [(v & E & I)|(((a & b) & w') & I & J)]; [injection E as <- <- <-; left; exists v; auto|]. right.
    apply combine_nth_error in I. destruct I as (e & E1 & E2). destruct J as [J|[J|[]]]; injection J as <- <- <-.
    + exists e, a, b. split; [left; exact E1|auto].
    + exists e, b, a. split; [right; exact E1|auto].
  - intros [(v & I & -> & -> & ->)|(e & u & v & J & X & -> & ->)]; [left; eauto|]. right.
    destruct J as [J|J]; [exists ((u, v), w)|exists ((v, u), w)]; (split; [apply combine_nth_error; exists e; auto|cbn; auto]).
Qed.

Lemma nodup_map_inj (f : nat -> nat) V : NoDup (map f V) -> forall u v, In u V -> In v V -> f u = f v -> u = v.
Proof.
  induction V as [|a V IH]; intros N u v; [intros []|]. cbn in N. inversion N as [|? ? NI N']; subst.
  intros [<-|I] [<-|J] E; [reflexivity| | |apply IH; assumption].
  - exfalso. apply NI. rewrite E. apply in_map. exact J.
  - exfalso. apply NI. rewrite <- E. apply in_map. exact I.
Qed.

Lemma split_graphb_ok g c V vt vh D : split_graphb g c V vt vh D = true -> split_graph g c V vt vh D.
Proof.
  unfold split_graphb. rewrite !Bool.andb_true_iff. intros (((((H1 & H2) & H3) & H4) & H5) & H6).
  apply nodupb_ok in H4. apply NoDup_app_iff in H4. destruct H4 as (NT & NH & DJ). rewrite forallb_forall in H2, H3.
  constructor.
  - apply directedb_ok. exact H1.
  - intros e u v J. assert (X : forall a b, In (a, b) (ge g) -> In a V /\ In b V /\ a <> b).
    { intros a b I. specialize (H2 _ I). cbn in H2. rewrite !Bool.andb_true_iff in H2. destruct H2 as ((A & B) & C).
      apply memb_In in A, B. apply Bool.negb_true_iff, Nat.eqb_neq in C. auto. }
    destruct J as [J|J]; apply nth_error_In, X in J; intuition.
  - intros v I. apply memb_In. apply H3. exact I.
  - intros u v I J. apply nodup_map_inj with V; assumption.
  - intros u v I J. apply nodup_map_inj with V; assumption.
  - intros u v I J E. apply (DJ (vt u)); [apply in_map; exact I|]. rewrite E. apply in_map. exact J.
  - intros x y w. rewrite <- arcs_of_In, <- split_arcs_In. split; intros I; [apply (arcs_subset _ _ H5)|apply (arcs_subset _ _ H6)]; exact I.
Qed.

(** Tails numbered [k + v] and heads numbered [v], for the vertices [v < k]. *)
Definition shifted_names (k : nat) : split_names :=
  mkNames (fun x => Nat.leb k x) (fun x => x - k)
    (fun w => match w with [] => [] | u :: r => u :: map (fun x => x - k) (filter (fun x => Nat.leb k x) r) end).

Lemma shifted_names_ok k V : (forall v, In v V -> v < k) -> names_ok V (fun v => k + v) (fun v => v) (shifted_names k).
Proof.
  intros H. constructor.
  - intros v _. cbn. apply Nat.leb_le. lia.
  - intros v I. cbn. apply Nat.leb_gt. apply H. exact I.
  - intros v _. cbn. lia.
  - intros p I L. destruct p as [|u p]; [cbn in L; lia|]. cbn. f_equal. clear L.
    assert (IP : incl p V) by (intros x J; apply I; right; exact J). clear I.
    induction p as [|v p IH]; [reflexivity|]. destruct p as [|b p].
    + cbn. rewrite (proj2 (Nat.leb_le k (k + v))) by lia. cbn. f_equal. lia.
    + change (split_rest (fun v => k + v) (fun v => v) (v :: b :: p)) with ((k + v) :: v :: split_rest (fun v => k + v) (fun v => v) (b :: p)).
      cbn [filter]. rewrite (proj2 (Nat.leb_le k (k + v))) by lia. rewrite (proj2 (Nat.leb_gt k v)) by (apply H, IP; left; reflexivity).
      cbn [map]. rewrite IH by (intros x J; apply IP; right; exact J). f_equal. lia.
Qed.
