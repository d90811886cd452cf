(** * P_PyWrap: lemmas for C44, C56 *)
From Verif Require Import Base Graph Spec M_Float M_Walk M_Graph M_Dijkstra M_Extension M_Collapse M_Gain
  M_Renaming M_Python M_PyCycle M_PyWrap Spec_Rename Spec_Python Spec_PyWrap.
From Verif Require Import Spec_Gain P_Base P_Dijkstra P_Renaming P_Bindings.
Open Scope nat_scope.

(** ** edges() *)

Lemma edges_from_In g : forall seen u v, In (u, v) (edges_from seen g) ->
  ~ In v seen /\ exists l, In (u, l) g /\ In v l.
Proof.
  induction g as [|(w & ns) r IH]; intros seen u v H; [destruct H|]. cbn in H. apply in_app_iff in H as [H|H].
  - apply in_map_iff in H as (x & EQ & H). inversion EQ; subst. apply filter_In in H as (H1 & H2).
    apply negb_true_iff in H2. split; [apply memb_not_In; exact H2|]. exists ns. cbn. auto.
  - destruct (IH _ _ _ H) as (N & l & I & J). split; [cbn in N; tauto|]. exists l. cbn. auto.
Qed.

Lemma edges_from_complete g : forall seen u v l, In (u, l) g -> In v l -> NoDup (map fst g) ->
  In (u, v) (edges_from seen g) \/ In v seen \/ exists a b, g = a ++ (u, l) :: b /\ In v (map fst a).
Proof.
  induction g as [|(w & ns) r IH]; intros seen u v l I J N; [destruct I|]. cbn in N. inversion N as [|? ? NI ND]; subst.
  destruct I as [EQ|I].
  - inversion EQ; subst. destruct (memb v seen) eqn:M.
    + right. left. apply memb_In. exact M.
    + left. cbn. apply in_app_iff. left. apply in_map. apply filter_In. rewrite M. auto.
  - destruct (IH (w :: seen) u v l I J ND) as [H|[H|(a & b & E & H)]].
    + left. cbn. apply in_app_iff. auto.
    + destruct H as [<-|H]; [|auto]. right. right. apply in_split in I as (a & b & E).
      exists ((w, ns) :: a), b. cbn. rewrite E. auto.
    + right. right. exists ((w, ns) :: a), b. cbn. rewrite E. auto.
Qed.

Definition crosses (a b : nat * nat) : Prop := a = b \/ a = (snd b, fst b).

Lemma edges_from_single g : forall seen, NoDup (map fst g) -> (forall v l, In (v, l) g -> NoDup l) ->
  forall e f u v, (nth_error (edges_from seen g) e = Some (u, v) \/ nth_error (edges_from seen g) e = Some (v, u)) ->
    (nth_error (edges_from seen g) f = Some (u, v) \/ nth_error (edges_from seen g) f = Some (v, u)) -> e = f.
Proof.
  induction g as [|(w & ns) r IH]; intros seen N L e f u v He Hf.
  - cbn in He. rewrite !nth_error_nil in He. destruct He; discriminate.
  - cbn in N. inversion N as [|? ? NI ND]; subst. cbn [edges_from] in He, Hf.
    set (hd := map (pair w) (filter (fun x => negb (memb x seen)) ns)) in *.
    assert (NH : NoDup hd).
    { unfold hd. apply FinFun.Injective_map_NoDup; [intros a b E; congruence|]. apply NoDup_filter. apply (L w). cbn. auto. }
    assert (HD : forall i a b, nth_error hd i = Some (a, b) -> a = w).
    { intros i a b E. apply nth_error_In in E. unfold hd in E. apply in_map_iff in E as (x & E & _). congruence. }
    assert (TL : forall i a b, nth_error (edges_from (w :: seen) r) i = Some (a, b) -> a <> w /\ b <> w).
    { intros i a b E. apply nth_error_In in E. apply edges_from_In in E as (X & l & I & _). split.
      - intros ->. apply NI. apply in_map_iff. exists (w, l). auto.
      - intros ->. apply X. cbn. auto. }
    destruct (Nat.lt_ge_cases e (length hd)) as [Le|Le], (Nat.lt_ge_cases f (length hd)) as [Lf|Lf].
    + rewrite nth_error_app1 in He, Hf by assumption.
      assert (E : nth_error hd e = nth_error hd f).
      { destruct He as [He|He], Hf as [Hf|Hf]; try congruence.
        - pose proof (HD _ _ _ He). pose proof (HD _ _ _ Hf). congruence.
        - pose proof (HD _ _ _ He). pose proof (HD _ _ _ Hf). congruence. }
      apply (proj1 (NoDup_nth_error hd) NH); assumption.
    + rewrite nth_error_app1 in He by assumption. rewrite nth_error_app2 in Hf by assumption. exfalso.
      destruct He as [He|He]; apply HD in He; destruct Hf as [Hf|Hf]; apply TL in Hf; destruct Hf; congruence.
    + rewrite nth_error_app1 in Hf by assumption. rewrite nth_error_app2 in He by assumption. exfalso.
      destruct Hf as [Hf|Hf]; apply HD in Hf; destruct He as [He|He]; apply TL in He; destruct He; congruence.
    + rewrite nth_error_app2 in He, Hf by assumption.
      assert (e - length hd = f - length hd); [|lia].
      apply (IH (w :: seen) ND (fun a l I => L a l (or_intror I)) _ _ u v He Hf).
Qed.

Lemma key_unique {A} (g : list (nat * A)) v l l' : NoDup (map fst g) -> In (v, l) g -> In (v, l') g -> l = l'.
Proof.
  induction g as [|(w & x) r IH]; intros N I J; [destruct I|]. cbn in N. inversion N as [|? ? NI ND]; subst.
  destruct I as [E|I], J as [F|J]; try (inversion E; subst); try (inversion F; subst); auto.
  - destruct NI. apply in_map_iff. exists (v, l'). auto.
  - destruct NI. apply in_map_iff. exists (v, l). auto.
Qed.

Lemma adj_vertex g u v : adj g u v -> vertex g u.
Proof. intros (l & I & _). apply in_map_iff. exists (u, l). auto. Qed.

Lemma split_keys {A} (g : list (nat * A)) a u l b a' v l' b' : NoDup (map fst g) ->
  g = a ++ (u, l) :: b -> g = a' ++ (v, l') :: b' -> In v (map fst a) -> In u (map fst a') -> False.
Proof.
  intros N E E' I J. apply in_map_iff in I as ((v0 & l0) & <- & I). apply in_map_iff in J as ((u0 & l1) & <- & J).
  cbn in *.
  apply In_nth_error in I as (i & I). apply In_nth_error in J as (j & J).
  assert (Li : i < length a) by (eapply nth_error_Some; congruence).
  assert (Lj : j < length a') by (eapply nth_error_Some; congruence).
  assert (K : forall x y : nat, nth_error (map fst g) x = nth_error (map fst g) y -> x < length g -> x = y).
  { intros x y E0 L. apply (proj1 (NoDup_nth_error _) N); [rewrite map_length; exact L|exact E0]. }
  assert (LG : length g = length a + S (length b)) by (rewrite E, app_length; cbn; lia).
  assert (LG' : length g = length a' + S (length b')) by (rewrite E', app_length; cbn; lia).
  assert (X1 : nth_error (map fst g) i = Some v0).
  { rewrite nth_error_map, E, nth_error_app1 by lia. rewrite I. reflexivity. }
  assert (X2 : nth_error (map fst g) (length a') = Some v0).
  { rewrite nth_error_map, E', nth_error_app2 by lia. rewrite Nat.sub_diag. reflexivity. }
  assert (X3 : nth_error (map fst g) j = Some u0).
  { rewrite nth_error_map, E', nth_error_app1 by lia. rewrite J. reflexivity. }
  assert (X4 : nth_error (map fst g) (length a) = Some u0).
  { rewrite nth_error_map, E, nth_error_app2 by lia. rewrite Nat.sub_diag. reflexivity. }
  assert (i = length a') by (apply K; [congruence|lia]).
  assert (j = length a) by (apply K; [congruence|lia]). lia.
Qed.

Lemma edges_adj g u v : undirected g ->
  (In (u, v) (edges_from [] g) \/ In (v, u) (edges_from [] g)) <-> adj g u v.
Proof.
  intros (N & L & S). split.
  - intros [H|H]; apply edges_from_In in H as (_ & H); [exact H|]. apply S. exact H.
  - intros A. pose proof (S _ _ A) as B. destruct A as (l & I & J). destruct B as (l' & I' & J').
    destruct (edges_from_complete g [] u v l I J N) as [H|[[]|(a & b & E & H)]]; [auto|].
    destruct (edges_from_complete g [] v u l' I' J' N) as [H'|[[]|(a' & b' & E' & H')]]; [auto|].
    exfalso. exact (split_keys g a u l b a' v l' b' N E E' H H').
Qed.

Lemma edges_no_parallel W n : undirected (pg_adj W) -> no_parallel (mkGraph n (py_edges W)).
Proof.
  intros (N & L & _) e f u v He Hf. exact (edges_from_single (pg_adj W) [] N L e f u v He Hf).
Qed.

(** ** Dictionaries *)

Section MAP.
Context {K : Type} (lt : K -> K -> bool).
Context (tri : forall a b, lt a b = false -> lt b a = false -> a = b).

Lemma map_insert_In k x m : ~ In k (map fst m) -> forall k' x',
  In (k', x') (map_insert lt k x m) <-> (k' = k /\ x' = x) \/ In (k', x') m.
Proof.
  induction m as [|(a & y) r IH]; intros NI k' x'; cbn.
  - split; [intros [E|[]]; inversion E; auto|intros [(-> & ->)|[]]; auto].
  - cbn in NI. destruct (lt k a) eqn:E1; [|destruct (lt a k) eqn:E2].
    + cbn. split; [intros [E|H]; [inversion E; auto|auto]|intros [(-> & ->)|H]; auto].
    + cbn. rewrite IH by tauto. tauto.
    + exfalso. apply NI. left. symmetry. apply tri; assumption.
Qed.

Lemma map_insert_keys k x m k' : In k' (map fst (map_insert lt k x m)) -> k' = k \/ In k' (map fst m).
Proof.
  induction m as [|(a & y) r IH]; cbn; [intros [->|[]]; auto|].
  destruct (lt k a); [cbn; intros [->|H]; auto|]. destruct (lt a k); cbn; [|auto].
  intros [->|H]; [auto|]. destruct (IH H); auto.
Qed.

Lemma to_map_ok d : NoDup (map fst d) -> (forall k x, In (k, x) d -> fits_int x) ->
  exists m, to_map lt d = Ok m /\ forall k x, In (k, x) m <-> In (k, x) d.
Proof.
  intros N F. unfold to_map.
  enough (X : forall m0, (forall k, In k (map fst d) -> ~ In k (map fst m0)) ->
    exists m, foldM (fun m '(k, x) => do z <- py_int x; Ok (map_insert lt k z m)) d m0 = Ok m /\
      forall k x, In (k, x) m <-> In (k, x) m0 \/ In (k, x) d).
  { destruct (X []) as (m & E & H); [auto|]. exists m. split; [exact E|]. intros k x. rewrite H. cbn. tauto. }
  induction d as [|(k & x) d IH]; intros m0 D.
  - exists m0. split; [reflexivity|]. cbn. tauto.
  - cbn in N. inversion N as [|? ? NI ND]; subst. cbn [foldM].
    assert (P : py_int x = Ok x).
    { unfold py_int. assert (Fx : fits_int x) by (apply (F k); cbn; auto). destruct Fx as (F1 & F2).
      apply Z.leb_le in F1, F2. rewrite F1, F2. reflexivity. }
    rewrite P. cbn [bind]. assert (K0 : ~ In k (map fst m0)) by (apply D; cbn; auto).
    destruct (IH ND (fun k' x' I => F k' x' (or_intror I)) (map_insert lt k x m0)) as (m & E & H).
    { intros k' I J. apply map_insert_keys in J as [->|J]; [contradiction|]. apply (D k'); cbn; auto. }
    exists m. split; [exact E|]. intros k' x'. rewrite H, map_insert_In by exact K0. cbn.
    split; [intros [[(-> & ->)|I]|I]; auto|intros [I|[I|I]]; auto; inversion I; auto].
Qed.
End MAP.

Lemma nat_tri a b : Nat.ltb a b = false -> Nat.ltb b a = false -> a = b.
Proof. rewrite !Nat.ltb_ge. lia. Qed.

Lemma pair_tri a b : pair_lt a b = false -> pair_lt b a = false -> a = b.
Proof.
  destruct a as (a1 & a2), b as (b1 & b2). unfold pair_lt. cbn [fst snd]. rewrite !orb_false_iff, !andb_false_iff, !Nat.ltb_ge, !Nat.eqb_neq.
  intros (H1 & H2) (H3 & H4). assert (a1 = b1) by lia. subst. f_equal. lia.
Qed.

Lemma flat_keys {A B} (f : A -> option B) l :
  map fst (flat_map (fun a => match f a with Some x => [(a, x)] | None => [] end) l) =
  filter (fun a => match f a with Some _ => true | None => false end) l.
Proof. induction l as [|a l IH]; [reflexivity|]. cbn. destruct (f a); cbn; rewrite IH; reflexivity. Qed.

Lemma flat_In {A B} (f : A -> option B) l a x :
  In (a, x) (flat_map (fun a => match f a with Some x => [(a, x)] | None => [] end) l) <-> In a l /\ f a = Some x.
Proof.
  rewrite in_flat_map. split.
  - intros (a' & I & J). destruct (f a') as [y|] eqn:E; [|destruct J]. destruct J as [J|[]]. inversion J; subst. auto.
  - intros (I & E). exists a. rewrite E. cbn. auto.
Qed.

Lemma edges_NoDup W : undirected (pg_adj W) -> NoDup (py_edges W).
Proof.
  intros U. apply NoDup_nth_error. intros i j Li E. pose proof (edges_no_parallel W 0 U) as NP.
  destruct (nth_error (py_edges W) i) as [(u & v)|] eqn:Ei; [|apply nth_error_None in Ei; lia].
  apply (NP i j u v); left; [exact Ei|symmetry; exact E].
Qed.

Section CALL.
Context (W : pygraph) (G : graph) (c p : list Z).
Context (HE : ge G = py_edges W) (U : undirected (pg_adj W)) (NIso : no_isolated (pg_adj W)).
Context (HF : attributes_fit (pg_cost W) (pg_prize W)).
Context (HS : same_graph (pg_adj W) (pg_cost W) (pg_prize W) G c p).

Lemma ends_vertex v : In v (ends (ge G)) <-> vertex (pg_adj W) v.
Proof.
  rewrite In_ends, HE. split.
  - intros ((a & b) & I & J). apply edges_from_In in I as (_ & A).
    assert (A' : adj (pg_adj W) a b) by exact A. destruct J as [->| ->]; cbn.
    + eapply adj_vertex; eauto.
    + eapply adj_vertex. apply U. exact A'.
  - intros V. destruct (NIso v V) as (u & A). apply edges_adj in A; [|exact U].
    destruct A as [A|A]; [exists (v, u)|exists (u, v)]; cbn; auto.
Qed.

Lemma call_ok : exists cd pd n, py_dicts W = Ok (cd, pd) /\ call_with G cd pd c p n.
Proof.
  destruct HS as (GO & NP & AE & LC & CC & LP & PP). destruct HF as (F1 & F2).
  assert (X1 : exists cd, to_map pair_lt (get_edge_attributes W) = Ok cd /\
            forall k x, In (k, x) cd <-> In (k, x) (get_edge_attributes W)).
  { apply to_map_ok; [exact pair_tri| |].
    - unfold get_edge_attributes. rewrite (flat_keys (fun e => pg_cost W (fst e) (snd e))). apply NoDup_filter.
      apply edges_NoDup. exact U.
    - intros (u & v) x I. unfold get_edge_attributes in I. apply (flat_In (fun e => pg_cost W (fst e) (snd e))) in I.
      destruct I as (_ & E). cbn in E. specialize (F1 u v). rewrite E in F1. exact F1. }
  assert (X2 : exists pd, to_map Nat.ltb (get_node_attributes W) = Ok pd /\
            forall k x, In (k, x) pd <-> In (k, x) (get_node_attributes W)).
  { apply to_map_ok; [exact nat_tri| |].
    - unfold get_node_attributes. rewrite (flat_keys (pg_prize W)). apply NoDup_filter. apply U.
    - intros v x I. unfold get_node_attributes in I. apply (flat_In (pg_prize W)) in I.
      destruct I as (_ & E). specialize (F2 v). rewrite E in F2. exact F2. }
  destruct X1 as (cd & E1 & I1). destruct X2 as (pd & E2 & I2).
  exists cd, pd, (length (nodup Nat.eq_dec (ends (ge G)))). split.
  { unfold py_dicts. rewrite E1. cbn [bind]. rewrite E2. reflexivity. }
  assert (C1 : forall u v x, In ((u, v), x) cd <-> In (u, v) (py_edges W) /\ pg_cost W u v = Some x).
  { intros u v x. rewrite I1. unfold get_edge_attributes.
    rewrite (flat_In (fun e => pg_cost W (fst e) (snd e)) (py_edges W) (u, v) x). reflexivity. }
  assert (C2 : forall v x, In (v, x) pd <-> vertex (pg_adj W) v /\ pg_prize W v = Some x).
  { intros v x. rewrite I2. apply (flat_In (pg_prize W)). }
  split; [exact GO|]. split; [|split].
  - split; [exact LC|]. split.
    + intros u v x I. apply C1 in I as (I & E). rewrite <- HE in I. apply In_nth_error in I as (e & I).
      exists e. split.
      * split; [left; exact I|]. intros f Hf. rewrite (NP e f u v); [lia|left; exact I|exact Hf].
      * rewrite (CC e u v I), E. reflexivity.
    + intros e Le NO. destruct (nth_error (ge G) e) as [(u & v)|] eqn:E; [|apply nth_error_None in E; lia].
      rewrite (CC e u v E). destruct (pg_cost W u v) as [x|] eqn:EC; [|reflexivity]. exfalso.
      apply (NO u v x).
      * apply C1. split; [|exact EC]. rewrite <- HE. eapply nth_error_In; eauto.
      * split; [left; exact E|]. intros f Hf. rewrite (NP e f u v); [lia|left; exact E|exact Hf].
  - split; [exact LP|]. split.
    + intros v x I. apply C2 in I as (V & E). split; [apply ends_vertex; exact V|]. rewrite (PP v V), E. reflexivity.
    + intros v I NO. apply ends_vertex in I. rewrite (PP v I). destruct (pg_prize W v) as [x|] eqn:E; [|reflexivity].
      exfalso. apply (NO x). apply C2. auto.
  - exists (nodup Nat.eq_dec (ends (ge G))). split; [apply NoDup_nodup|]. split; [|reflexivity].
    intros v. apply nodup_In.
Qed.
End CALL.

Lemma py_int_fits z : fits_int z -> py_int z = Ok z.
Proof. intros (F1 & F2). unfold py_int. apply Z.leb_le in F1, F2. rewrite F1, F2. reflexivity. Qed.

Lemma py_int_range z : ~ fits_int z -> py_int z = Throw TypeErrorPy.
Proof.
  intros F. unfold py_int. destruct (Z.leb_spec int_min z), (Z.leb_spec z int_max); cbn; try reflexivity.
  destruct F. split; assumption.
Qed.

Lemma reaches_old labels inner : NoDup labels ->
  reaches labels inner (do t <- inner; get_old_vertices (bm_of labels) t).
Proof.
  intros N. destruct inner as [t|e|u|]; cbn; try reflexivity. intros T R. apply get_old_vertices_ok. exact R.
Qed.

(** Everything up to the call of the C++ function. *)
Lemma call_setup W G c p : ge G = py_edges W -> undirected (pg_adj W) -> no_isolated (pg_adj W) ->
  attributes_fit (pg_cost W) (pg_prize W) -> same_graph (pg_adj W) (pg_cost W) (pg_prize W) G c p ->
  exists cd pd labels g q, py_dicts W = Ok (cd, pd) /\ rename_graph (py_edges W) = (bm_of labels, g) /\
    fill_maps (bm_of labels) g cd pd = Ok (c, q) /\ relabelled labels g q G p /\
    (forall v, vertex (pg_adj W) v -> exists r, nth_error labels r = Some v /\ get_new_vertex (bm_of labels) v = Ok r) /\
    (forall T, Forall (vertex (pg_adj W)) T -> exists t, renamed labels t T /\ get_new_vertices (bm_of labels) T = Ok t).
Proof.
  intros HE U NIso HF HS. destruct (call_ok W G c p HE U NIso HF HS) as (cd & pd & n & ED & HG & Hc & Hp & Hn).
  destruct (bind_setup G cd pd c p n Hc Hp Hn) as (labels & out & q & ER & FA & ND & FE & GN & GO & LE & FM & PQ & LQ).
  exists cd, pd, labels, (add_edges_to_graph (mkGraph 0 []) out), q. rewrite <- HE.
  split; [exact ED|]. split; [exact ER|]. split; [exact FM|].
  assert (V : forall v, vertex (pg_adj W) v -> In v labels).
  { intros v Hv. apply FA. apply (ends_vertex W G HE U NIso). exact Hv. }
  split; [|split].
  - split; [exact ND|]. split; [apply (iso_gn G labels out FA ND FE)|]. split; [|exact PQ].
    rewrite add_edges_ge. cbn [ge app]. apply edge_named_ends. exact FE.
  - intros v Hv. destruct (In_nth_error labels v (V v Hv)) as (r & R). exists r. split; [exact R|].
    apply get_new_ok; assumption.
  - intros T HT. destruct (renamed_exists' labels T) as (t & R).
    { eapply Forall_impl; [|exact HT]. exact V. }
    exists t. split; [exact R|]. apply get_new_vertices_ok; assumption.
Qed.

(** ** depth limit below 2 *)

Lemma at_shallow g t c p r s d i o : (d < 2)%Z -> find_extension_path_at g t c p r s d i = Ok o -> o = None.
Proof.
  intros D. unfold find_extension_path_at. 
  destruct (it_get t i) as [vi|e|u|]; cbn [bind]; try discriminate.
  destruct (it_get t _) as [vj|e|u|]; cbn [bind]; try discriminate.
  destruct (get_subpath_of_cycle t i _) as [int|e|u|]; cbn [bind]; try discriminate.
  destruct (is_internal_vertex_of_walk int r) as [b|e|u|]; cbn [bind]; try discriminate.
  destruct (Z.eqb_spec d 2); [lia|]. destruct (Z.ltb_spec 2 d); [lia|]. cbn. congruence.
Qed.

Lemma shallow_none l : Forall (fun o : option (float32 * list nat) => o = None) l -> forall i,
  index_of_smallest_loss_from l i None = None.
Proof. induction 1 as [|o l -> H IH]; intros i; cbn; auto. Qed.

Lemma path_extension_shallow g t c p r s d t' : (d < 2)%Z -> path_extension g t c p r s d = Ok t' -> t' = t.
Proof.
  intros D. unfold path_extension. destruct (num_vertices g) as [|rem]; cbn [path_extension_loop]; [congruence|].
  destruct (step_lt_size s (length t)); [|congruence]. destruct t as [|x t0] eqn:ET; [discriminate|]. rewrite <- ET.
  destruct (find_extension_paths g t c p r (Z.to_nat s) d) as [l|e|u|] eqn:E; cbn [bind]; try discriminate.
  unfold find_extension_paths in E.
  assert (A : Forall (fun o => o = None) l).
  { apply mapM_inv in E. clear - E D. induction E as [|i o is l H HF IH]; constructor; auto.
    eapply at_shallow; eauto. }
  unfold index_of_smallest_loss. rewrite shallow_none by exact A. congruence.
Qed.

(** ** The graph a caller means *)

Definition view_graph (N : nat) (W : pygraph) : graph := mkGraph N (py_edges W).
Definition view_costs (W : pygraph) : list Z := map (fun e => attr (pg_cost W (fst e) (snd e))) (py_edges W).
Definition view_prizes (N : nat) (W : pygraph) : list Z := map (fun v => attr (pg_prize W v)) (seq 0 N).

Lemma view_ok W N : undirected (pg_adj W) -> (forall v, vertex (pg_adj W) v -> v < N) ->
  same_graph (pg_adj W) (pg_cost W) (pg_prize W) (view_graph N W) (view_costs W) (view_prizes N W).
Proof.
  intros U B. split; [|split; [|split; [|split; [|split; [|split]]]]].
  - intros a b I. cbn in I. apply edges_from_In in I as (_ & A). assert (A' : adj (pg_adj W) a b) by exact A.
    split; apply B; [eapply adj_vertex; eauto|]. eapply adj_vertex. apply U. exact A'.
  - apply edges_no_parallel. exact U.
  - intros u v. rewrite <- edges_adj by exact U. split.
    + intros (e & [E|E]); apply nth_error_In in E; auto.
    + intros [I|I]; apply In_nth_error in I as (e & E); exists e; [left|right]; exact E.
  - apply map_length.
  - intros e u v E. unfold view_costs. cbn in E. rewrite nth_error_map, E. reflexivity.
  - unfold view_prizes. rewrite map_length, seq_length. reflexivity.
  - intros v V. unfold view_prizes. rewrite nth_error_map.
    assert (E : nth_error (seq 0 N) v = Some v).
    { rewrite nth_error_nth' with (d := 0) by (rewrite seq_length; auto). rewrite seq_nth by auto. reflexivity. }
    rewrite E. reflexivity.
Qed.

Lemma closed_in_vertex W G c p r m t : same_graph (pg_adj W) (pg_cost W) (pg_prize W) G c p -> 1 <= m ->
  closed_tour G r m t -> Forall (vertex (pg_adj W)) t.
Proof.
  intros (_ & _ & AE & _) M (vs & -> & ND & L & IW & _).
  assert (Y : forall w x, is_walk G (x :: w) -> w <> [] -> (forall u v, is_edge G u v -> is_edge G v u) -> Forall (vertex (pg_adj W)) (x :: w)).
  { induction w as [|y w IH]; intros x H NE SY; [congruence|]. inversion H as [| |? ? ? HE HW]; subst.
    assert (VX : vertex (pg_adj W) x) by (apply AE in HE; eapply adj_vertex; eauto).
    constructor; [exact VX|]. destruct w as [|z w].
    - constructor; [|constructor]. apply SY in HE. apply AE in HE. eapply adj_vertex; eauto.
    - apply IH; [exact HW|discriminate|exact SY]. }
  apply Y; [exact IW|destruct vs; discriminate|].
  intros u v (e & [E|E]); exists e; [right|left]; exact E.
Qed.

Lemma cycle_closed W G c p r t : same_graph (pg_adj W) (pg_cost W) (pg_prize W) G c p ->
  cycle_at (adj (pg_adj W)) r t -> closed_tour G r 2 t.
Proof.
  intros (GO & _ & AE & _) (vs & -> & ND & L & CH). exists vs. split; [reflexivity|]. split; [exact ND|]. split; [exact L|].
  assert (IW : forall w, chain (adj (pg_adj W)) w -> is_walk G w).
  { induction 1; constructor; auto. apply AE. assumption. }
  split; [apply IW; exact CH|].
  assert (Y : forall w x, is_walk G (x :: w) -> w <> [] -> Forall (fun v => v < gn G) (x :: w)).
  { induction w as [|y w IH]; intros x H NE; [congruence|]. inversion H as [| |? ? ? HE HW]; subst.
    assert (B : x < gn G /\ y < gn G).
    { destruct HE as (e & [E|E]); apply nth_error_In in E; apply GO in E; tauto. }
    constructor; [tauto|]. destruct w as [|z w]; [constructor; [tauto|constructor]|].
    apply IH; [exact HW|discriminate]. }
  apply Y; [apply IW; exact CH|destruct vs; discriminate].
Qed.

(** ** The collapse heuristics behind run_heuristic *)

Lemma vertex_count_fun es n m : vertex_count es n -> vertex_count es m -> n = m.
Proof.
  intros (a & A & Ia & <-) (b & B & Ib & <-). apply NoDup_same_length; auto. intros x. rewrite Ia, Ib. reflexivity.
Qed.

Section RUN.
Context (W : pygraph) (G : graph) (c p : list Z) (n : nat) (C P : Z).
Context (HE : ge G = py_edges W) (U : undirected (pg_adj W)) (NIso : no_isolated (pg_adj W)).
Context (HF : attributes_fit (pg_cost W) (pg_prize W)).
Context (HS : same_graph (pg_adj W) (pg_cost W) (pg_prize W) G c p).
Context (Hn : vertex_count (ge G) n) (HC : costs_within G c 0 C) (HP : prizes_within G p 0 P).
Context (HN : small_numbers n C P) (tb : tiebreak) (HT : good_pick tb).

Lemma call_n : exists cd pd, py_dicts W = Ok (cd, pd) /\ call_with G cd pd c p n.
Proof.
  destruct (call_ok W G c p HE U NIso HF HS) as (cd & pd & n' & E & H). exists cd, pd. split; [exact E|].
  rewrite (vertex_count_fun (ge G) n n' Hn (proj2 (proj2 (proj2 H)))). exact H.
Qed.

Lemma wide : costs_within G c (- C) C /\ prizes_within G p (- P) P.
Proof.
  destruct HN as (C0 & P0 & _). destruct HC as (L & F), HP as (L' & F').
  split; (split; [assumption|]); eapply Forall_impl; [|eassumption| |eassumption]; intros x; cbv beta; lia.
Qed.

Lemma run_path_collapse root m t quota shortest depth step : 1 <= m <= 2 -> closed_tour G root m t ->
  fits_int quota -> fits_int depth -> fits_int step -> (step < int_max)%Z ->
  exists t', py_path_extension_collapse tb W t root quota shortest depth step = Ok t' /\
    (t' = [] \/ closed_tour G root m t' /\ exists z, tour_prize p t' z /\ (quota <= z)%Z) /\
    (forall z, tour_prize p t z -> (quota <= z)%Z -> exists x y,
       t' <> [] /\ walk_cost G c t x /\ walk_cost G c t' y /\ (y <= x)%Z).
Proof.
  intros M T FQ FD FS LS. destruct call_n as (cd & pd & E & H). destruct HN as (C0 & P0 & N1 & N2 & N3 & N4).
  unfold py_path_extension_collapse. rewrite E. cbn [bind]. rewrite !py_int_fits by assumption. cbn [bind].
  rewrite <- HE.
  apply (combined_bind_ok G cd pd c p n C P H HC HP C0 P0 N2 N4 tb HT N1 root m quota depth shortest step t M LS T).
Qed.

Lemma run_until root t quota : closed_tour G root 2 t -> fits_int quota ->
  exists t', py_extension_until W t quota = Ok t' /\ closed_tour G root 2 t'.
Proof.
  intros T FQ. destruct call_n as (cd & pd & E & H). destruct HN as (C0 & P0 & N1 & N2 & N3 & N4).
  destruct wide as (W1 & W2).
  unfold py_extension_until. rewrite E. cbn [bind]. rewrite py_int_fits by assumption. cbn [bind]. rewrite <- HE.
  assert (T1 : closed_tour G root 1 t).
  { destruct T as (vs & ET & ND & L & X). exists vs. split; [exact ET|]. split; [exact ND|]. split; [lia|exact X]. }
  destruct (extension_bind_ok G cd pd c p n C P H W1 W2 N3 P0) with (root := root) (t := t) (quota := quota)
    as (t' & E' & _ & _ & T' & _); [lia|exact T1|].
  exists t'. split; [exact E'|]. destruct T' as [-> | T']; assumption.
Qed.

Lemma run_gain_collapse root t z quota : closed_tour G root 2 t -> tour_prize p t z -> fits_int quota ->
  exists t1 z1 t', py_extension_unitary_gain W t = Ok t1 /\ closed_tour G root 2 t1 /\ tour_prize p t1 z1 /\ (z <= z1)%Z /\
    py_extension_unitary_gain_collapse tb W t quota root = Ok t' /\ closed_tour G root 2 t' /\
    ((quota <= z1)%Z -> exists z', tour_prize p t' z' /\ (quota <= z')%Z) /\
    ((z1 < quota)%Z -> same_cycle t1 t').
Proof.
  intros T TP FQ. destruct call_n as (cd & pd & E & H). destruct HN as (C0 & P0 & N1 & N2 & N3 & N4).
  destruct wide as (W1 & W2).
  assert (T1 : closed_tour G root 1 t).
  { destruct T as (vs & ET & ND & L & X). exists vs. split; [exact ET|]. split; [exact ND|]. split; [lia|exact X]. }
  destruct (gain_bind_ok G cd pd c p n C P H W1 HP P0 N3 root t z T1 TP) as (t1 & z1 & E1 & _ & T2 & SS & _ & TP1 & LZ).
  assert (T2' : closed_tour G root 2 t1) by (destruct T2 as [-> | T2]; assumption).
  assert (EG : py_extension_unitary_gain W t = Ok t1).
  { unfold py_extension_unitary_gain. rewrite E. cbn [bind]. rewrite <- HE. exact E1. }
  assert (IR : In root t1) by (destruct T2' as (vs & -> & _); cbn; auto).
  destruct (collapse_bind_ok G cd pd c p n C P H HC HP C0 P0 N2 N4 tb HT root t1 root 2 quota false T2' ltac:(lia) IR)
    as (t' & za & zb & EC & TC & _ & _ & _ & QA & QB & _).
  exists t1, z1, t'. split; [exact EG|]. split; [exact T2'|]. split; [exact TP1|].
  split.
  { assert (length t <= length t1); [|lia]. clear - SS. induction SS; cbn; lia. }
  split.
  { unfold py_extension_unitary_gain_collapse. rewrite EG. cbn [bind]. unfold py_collapse. rewrite E. cbn [bind].
    rewrite py_int_fits by assumption. cbn [bind]. rewrite <- HE. exact EC. }
  split; [exact TC|]. split; [exact (QA z1 TP1)|exact (QB z1 TP1)].
Qed.
End RUN.
