(** * P_Python: proofs about the Python preprocessing and starting-tour functions *)
From Verif Require Import Base P_Base M_Python Spec_Python.
Open Scope nat_scope.

Lemma dget_In {A} (d : list (nat * A)) k a : dget d k = Some a -> In (k, a) d.
Proof.
  induction d as [|[k' a'] d IH]; cbn; [discriminate|].
  destruct (Nat.eqb_spec k k') as [->|]; [intros [= ->]; auto|auto].
Qed.
Lemma dget_some {A} (d : list (nat * A)) k a : NoDup (map fst d) -> In (k, a) d -> dget d k = Some a.
Proof.
  induction d as [|[k' a'] d IH]; cbn; [tauto|]. intros N [E|H]; inversion N; subst.
  - injection E as -> ->. now rewrite Nat.eqb_refl.
  - destruct (Nat.eqb_spec k k') as [->|]; auto.
    exfalso. apply H2. apply in_map_iff. exists (k', a). auto.
Qed.
Lemma dget_key {A} (d : list (nat * A)) k : In k (map fst d) -> exists a, dget d k = Some a.
Proof.
  induction d as [|[k' a'] d IH]; cbn; [tauto|].
  destruct (Nat.eqb_spec k k'); [eauto|]. intros [E|H]; [congruence|auto].
Qed.

(** ** Subgraphs *)
Lemma subgraph_nodes g keep : map fst (nx_subgraph g keep) = filter keep (map fst g).
Proof.
  unfold nx_subgraph. induction g as [|[v l] g IH]; cbn; auto.
  destruct (keep v); cbn; rewrite ?IH; auto.
Qed.
Lemma subgraph_In g keep v l : In (v, l) (nx_subgraph g keep) <->
  keep v = true /\ exists l0, In (v, l0) g /\ l = filter keep l0.
Proof.
  unfold nx_subgraph. rewrite in_map_iff. split.
  - intros ([v' l'] & E & H). injection E as <- <-. apply filter_In in H. firstorder.
  - intros (K & l0 & H & ->). exists (v, l0). split; auto. apply filter_In. auto.
Qed.
Lemma subgraph_adj g keep u v : adj (nx_subgraph g keep) u v <->
  adj g u v /\ keep u = true /\ keep v = true.
Proof.
  unfold adj. split.
  - intros (l & H & I). apply subgraph_In in H as (K & l0 & H & ->).
    apply filter_In in I as (I & K'). eauto.
  - intros ((l & H & I) & K & K'). exists (filter keep l). split.
    + apply subgraph_In. eauto.
    + apply filter_In. auto.
Qed.
Lemma subgraph_vertex g keep v : vertex (nx_subgraph g keep) v <-> vertex g v /\ keep v = true.
Proof. unfold vertex. rewrite subgraph_nodes. apply filter_In. Qed.

Lemma adj_vertex g u v : undirected g -> adj g u v -> vertex g u /\ vertex g v.
Proof.
  intros (_ & _ & S) H.
  assert (L : forall a b, adj g a b -> vertex g a).
  { intros a b (l & I & _). unfold vertex. apply in_map_iff. exists (a, l). auto. }
  split; eauto.
Qed.

Lemma subgraph_undirected g keep : undirected g -> undirected (nx_subgraph g keep).
Proof.
  intros (N & L & S). split; [|split].
  - rewrite subgraph_nodes. now apply NoDup_filter.
  - intros v l H. apply subgraph_In in H as (_ & l0 & H & ->). apply NoDup_filter. eauto.
  - intros u v H. apply subgraph_adj in H as (H & K & K'). apply subgraph_adj. auto.
Qed.

Lemma subgraph_induced g keep : undirected g -> induced_subgraph (nx_subgraph g keep) g.
Proof.
  intros U. split; [now apply subgraph_undirected|]. split.
  - intros v H. now apply subgraph_vertex in H.
  - intros u v. rewrite subgraph_adj, !subgraph_vertex. split.
    + intros (H & K & K'). pose proof (adj_vertex g u v U H). tauto.
    + tauto.
Qed.

Lemma induced_refl g : undirected g -> induced_subgraph g g.
Proof.
  intros U. split; [auto|]. split; [auto|]. intros u v. split; [|tauto].
  intros H. pose proof (adj_vertex g u v U H). tauto.
Qed.
Lemma induced_trans f g h : induced_subgraph f g -> induced_subgraph g h -> induced_subgraph f h.
Proof.
  intros (U & V & A) (U' & V' & A'). split; [auto|]. split; [auto|]. intros u v.
  rewrite A, A'. split; [tauto|]. intros (H & K & K'). repeat split; auto.
Qed.

(** ** remove_leaves *)
Lemma degree_ok g v l : undirected g -> In (v, l) g ->
  degree_without_self_loops g v = Ok (length (filter (fun u => negb (Nat.eqb u v)) l)).
Proof.
  intros (N & _) H. unfold degree_without_self_loops, nx_neighbors.
  now rewrite (dget_some g v l N H).
Qed.

Lemma two_of_length (l : list nat) : NoDup l -> 2 <= length l ->
  exists a b, a <> b /\ In a l /\ In b l.
Proof.
  destruct l as [|a [|b l]]; cbn; try lia. intros N _. inversion N; subst.
  exists a, b. cbn in *. split; [intros ->; tauto|tauto].
Qed.
Lemma length_of_two (l : list nat) a b : a <> b -> In a l -> In b l -> 2 <= length l.
Proof. destruct l as [|x [|y l]]; cbn; try tauto; try lia. Qed.

Lemma leaf_vertices_ok g : undirected g -> exists leaves, leaf_vertices g = Ok leaves /\
  forall v, In v leaves <-> vertex g v /\
    ~ exists a b, a <> b /\ a <> v /\ b <> v /\ adj g v a /\ adj g v b.
Proof.
  intros U. unfold leaf_vertices.
  destruct (foldM_inv (fun acc v =>
    do d <- degree_without_self_loops g v;
    Ok (if Nat.leb d 1 then acc ++ [v] else acc))
    (fun done acc => forall v, In v acc <-> In v done /\
      ~ exists a b, a <> b /\ a <> v /\ b <> v /\ adj g v a /\ adj g v b)
    (nx_nodes g) []) as (s & E & H).
  - intros v. cbn. tauto.
  - intros done x rest s E IH.
    assert (X : In x (nx_nodes g)) by (rewrite E; apply in_app_iff; cbn; auto).
    unfold nx_nodes in X. apply in_map_iff in X as ([x' l] & Ex & X). cbn in Ex. subst x'.
    rewrite (degree_ok g x l U X). cbn [bind]. eexists. split; [reflexivity|].
    assert (D : (exists a b, a <> b /\ a <> x /\ b <> x /\ adj g x a /\ adj g x b) <->
                2 <= length (filter (fun u => negb (Nat.eqb u x)) l)).
    { destruct U as (N & NL & S). split.
      - intros (a & b & Q & Qa & Qb & (la & Ia & Ja) & (lb & Ib & Jb)).
        pose proof (dget_some g x la N Ia). pose proof (dget_some g x lb N Ib).
        pose proof (dget_some g x l N X). assert (la = l) by congruence. assert (lb = l) by congruence.
        subst la lb. apply (length_of_two _ a b Q); apply filter_In; split; auto;
          destruct (Nat.eqb_spec a x), (Nat.eqb_spec b x); cbn; congruence.
      - intros Q. apply two_of_length in Q; [|apply NoDup_filter; eauto].
        destruct Q as (a & b & Q & Ia & Ib). apply filter_In in Ia as (Ia & Qa), Ib as (Ib & Qb).
        exists a, b. repeat split; auto.
        + destruct (Nat.eqb_spec a x); cbn in Qa; congruence.
        + destruct (Nat.eqb_spec b x); cbn in Qb; congruence.
        + exists l; auto.
        + exists l; auto. }
    intros v. rewrite in_app_iff. destruct (Nat.leb_spec (length (filter (fun u => negb (Nat.eqb u x)) l)) 1).
    + rewrite in_app_iff, IH. cbn. split.
      * intros [Q|[<-|[]]]; [tauto|]. split; [auto|]. rewrite D. lia.
      * intros ([Q|[<-|[]]] & Q'); [left; auto|auto].
    + rewrite IH. cbn. split; [tauto|]. intros ([Q|[<-|[]]] & Q'); [auto|]. exfalso. apply Q'. apply D. lia.
  - exists s. split; [exact E|]. exact H.
Qed.

Lemma filter_length_lt {A} (f : A -> bool) l x : In x l -> f x = false -> length (filter f l) < length l.
Proof.
  assert (G : forall m, length (filter f m) <= length m) by (induction m; cbn; [lia|destruct (f a); cbn; lia]).
  induction l as [|y l IH]; cbn; [tauto|]. intros [->|I] F.
  - rewrite F. pose proof (G l). lia.
  - specialize (IH I F). destruct (f y); cbn; lia.
Qed.

Lemma remove_leaves_ok depth : forall g, undirected g -> length g < depth ->
  exists h, remove_leaves depth g = Ok h /\ induced_subgraph h g /\
    two_neighbours h (vertex h) /\
    (forall S : nat -> Prop, (forall v, S v -> vertex g v) -> two_neighbours g S -> forall v, S v -> vertex h v).
Proof.
  induction depth as [|d IH]; intros g U L; [lia|]. cbn [remove_leaves].
  destruct (leaf_vertices_ok g U) as (leaves & -> & HL). cbn [bind].
  set (keep := fun v => negb (memb v leaves)).
  assert (K : forall v, keep v = true <-> ~ In v leaves).
  { intros v. unfold keep. destruct (memb v leaves) eqn:E; cbn.
    - apply memb_In in E. split; [discriminate|tauto].
    - apply memb_not_In in E. tauto. }
  pose proof (subgraph_induced g keep U) as IS.
  assert (C : forall S : nat -> Prop, (forall v, S v -> vertex g v) -> two_neighbours g S ->
              (forall v, S v -> vertex (nx_subgraph g keep) v) /\ two_neighbours (nx_subgraph g keep) S).
  { intros S SV T.
    assert (KS : forall v, S v -> keep v = true).
    { intros v Sv. apply K. intros I. apply HL in I as (_ & I). apply I.
      destruct (T v Sv) as (a & b & ?). exists a, b. tauto. }
    split.
    - intros v Sv. apply subgraph_vertex. split; auto.
    - intros v Sv. destruct (T v Sv) as (a & b & ? & ? & ? & Sa & Sb & Aa & Ab).
      exists a, b. do 5 (split; [assumption|]). split; apply subgraph_adj; auto. }
  destruct leaves as [|x leaves].
  - eexists. split; [reflexivity|]. split; [exact IS|].
    split.
    + intros v V. pose proof V as V0. apply subgraph_vertex in V0 as (V0 & _).
      destruct (HL v) as (_ & HL2). cbn in HL2.
      assert (D : (exists a b, a <> b /\ a <> v /\ b <> v /\ adj g v a /\ adj g v b)).
      { unfold vertex in V0. apply in_map_iff in V0 as ([v' l] & Ev & I). cbn in Ev. subst v'.
        destruct (le_lt_dec 2 (length (filter (fun u => negb (Nat.eqb u v)) l))) as [Q|Q].
        - apply two_of_length in Q; [|apply NoDup_filter; destruct U as (_ & NL & _); eauto].
          destruct Q as (a & b & Q & Ia & Ib). apply filter_In in Ia as (Ia & Qa), Ib as (Ib & Qb).
          exists a, b. repeat split; auto.
          + destruct (Nat.eqb_spec a v); cbn in Qa; congruence.
          + destruct (Nat.eqb_spec b v); cbn in Qb; congruence.
          + exists l; auto.
          + exists l; auto.
        - exfalso. apply HL2. split; [apply in_map_iff; exists (v, l); auto|].
          intros (a & b & Q1 & Qa & Qb & (la & Ia & Ja) & (lb & Ib & Jb)).
          destruct U as (N & NL & S0).
          pose proof (dget_some g v la N Ia). pose proof (dget_some g v lb N Ib).
          pose proof (dget_some g v l N I). assert (la = l) by congruence. assert (lb = l) by congruence.
          subst la lb. assert (2 <= length (filter (fun u => negb (Nat.eqb u v)) l)); [|lia].
          apply (length_of_two _ a b Q1); apply filter_In; split; auto;
          destruct (Nat.eqb_spec a v), (Nat.eqb_spec b v); cbn; congruence. }
      destruct D as (a & b & Q & Qa & Qb & Aa & Ab). exists a, b.
      assert (KA : forall u, keep u = true) by (intros u; apply K; cbn; tauto).
      do 3 (split; [assumption|]).
      destruct (adj_vertex g v a U Aa) as (_ & Va). destruct (adj_vertex g v b U Ab) as (_ & Vb).
      split; [apply subgraph_vertex; auto|]. split; [apply subgraph_vertex; auto|].
      split; apply subgraph_adj; auto.
    + intros S SV T. apply (C S SV T).
  - destruct (IH (nx_subgraph g keep)) as (h & E & I & T & M).
    + now apply subgraph_undirected.
    + assert (length (nx_subgraph g keep) < length g); [|lia].
      rewrite <- (map_length fst (nx_subgraph g keep)), subgraph_nodes, <- (map_length fst g).
      apply filter_length_lt with x.
      * apply (HL x). cbn; auto.
      * apply not_true_iff_false. rewrite K. cbn; tauto.
    + exists h. split; [exact E|]. split; [exact (induced_trans _ _ _ I IS)|]. split; [exact T|].
      intros S SV TS. destruct (C S SV TS) as (C1 & C2). exact (M S C1 C2).
Qed.

Lemma chain_split R a x b : chain R (a ++ x :: b) -> chain R (a ++ [x]) /\ chain R (x :: b).
Proof.
  induction a as [|y a IH]; cbn; intros H.
  - split; [constructor|auto].
  - destruct a as [|z a]; cbn in *.
    + inversion H; subst. split; [constructor; [auto|constructor]|auto].
    + inversion H; subst. destruct (IH H4). split; [constructor; auto|auto].
Qed.
Lemma chain_join R a x b : chain R (a ++ [x]) -> chain R (x :: b) -> chain R (a ++ x :: b).
Proof.
  induction a as [|y a IH]; cbn; intros H H'; auto.
  destruct a as [|z a]; cbn in *.
  - inversion H; subst. constructor; auto.
  - inversion H; subst. constructor; auto.
Qed.
Lemma chain_impl (R R' : nat -> nat -> Prop) l : (forall u v, In u l -> In v l -> R u v -> R' u v) ->
  chain R l -> chain R' l.
Proof.
  intros I H. induction H; constructor.
  - apply I; cbn; auto.
  - apply IHchain. intros; apply I; cbn; auto.
Qed.
Lemma chain_rev (R : nat -> nat -> Prop) l : (forall u v, R u v -> R v u) -> chain R l -> chain R (rev l).
Proof.
  intros S H. induction H; cbn; try constructor.
  cbn in IHchain. rewrite <- app_assoc. cbn. apply chain_join; [auto|].
  constructor; [auto|constructor].
Qed.
Lemma chain_step R a u v b : chain R (a ++ u :: v :: b) -> R u v.
Proof. intros H. apply chain_split in H as (_ & H). now inversion H. Qed.

(** A cycle is a vertex set with two neighbours each. *)
Lemma cycle_two_neighbours g r t : undirected g -> cycle_at (adj g) r t ->
  two_neighbours g (fun v => In v t).
Proof.
  intros U (vs & -> & N & L & C) v I.
  destruct vs as [|x vs]; [cbn in L; lia|].
  destruct (exists_last (l := x :: vs) ltac:(discriminate)) as (ws & y & E).
  destruct U as (_ & _ & S).
  assert (I' : In v (r :: x :: vs)).
  { cbn in I. rewrite in_app_iff in I. cbn in *. intuition. }
  destruct I' as [<-|I'].
  - exists x, y. rewrite E in C.
    assert (Qxy : x <> y).
    { intros ->. destruct ws as [|z ws].
      - cbn in E. injection E as E'. subst vs. cbn in L. lia.
      - cbn in E. injection E as E1 E2. subst z vs. inversion N; subst. inversion H2; subst. apply H3. apply in_app_iff. cbn; auto. }
    assert (Iy : In y (x :: vs)) by (rewrite E; apply in_app_iff; cbn; auto).
    inversion N; subst.
    split; [auto|]. split; [intros ->; apply H1; cbn; auto|]. split; [intros ->; auto|].
    split; [cbn; auto|]. split; [cbn in *; rewrite in_app_iff; tauto|].
    split.
    + rewrite <- E in C. cbn in C. now inversion C.
    + apply S. replace (r :: (ws ++ [y]) ++ [r]) with ((r :: ws) ++ y :: r :: []) in C
        by (cbn; now rewrite <- app_assoc). now apply chain_step in C.
  - apply in_split in I' as (a & b & Ev).
    (* predecessor and successor of v *)
    destruct (exists_last (l := r :: a) ltac:(discriminate)) as (a' & p & Ep).
    set (q := match b with q :: _ => q | [] => r end).
    rewrite Ev in *.
    assert (CC : chain (adj g) (a' ++ p :: v :: b ++ [r])).
    { replace (a' ++ p :: v :: b ++ [r]) with ((a' ++ [p]) ++ v :: b ++ [r]) by (rewrite <- app_assoc; reflexivity).
      rewrite <- Ep. cbn in *. rewrite <- app_assoc in C. exact C. }
    assert (NN : NoDup ((a' ++ [p]) ++ v :: b)) by (rewrite <- Ep; exact N).
    assert (Ip : In p (r :: a)) by (rewrite Ep; apply in_app_iff; cbn; auto).
    assert (Qpv : p <> v).
    { intros ->. apply NoDup_app_iff in NN as (_ & _ & D). apply (D v); [apply in_app_iff|]; cbn; auto. }
    assert (Qpq : p <> q).
    { unfold q. destruct b as [|q' b].
      - intros ->. destruct a' as [|z a'].
        + injection Ep as Ea. subst a. cbn in L. lia.
        + injection Ep as <- Ea. apply NoDup_app_iff in NN as (NN & _). inversion NN; subst.
          apply H1. apply in_app_iff; cbn; auto.
      - intros ->. apply NoDup_app_iff in NN as (_ & _ & D). apply (D q'); [apply in_app_iff|]; cbn; auto. }
    assert (Qqv : q <> v).
    { unfold q. destruct b as [|q' b].
      - intros ->. inversion N; subst. apply H1. apply in_app_iff; cbn; auto.
      - intros ->. apply NoDup_app_iff in NN as (_ & NN & _). inversion NN; subst. cbn in *; tauto. }
    exists p, q. do 3 (split; [assumption|]). split; [|split; [|split]].
    + cbn in *. rewrite !in_app_iff. tauto.
    + unfold q. destruct b; cbn; rewrite ?in_app_iff; cbn; rewrite ?in_app_iff; cbn; tauto.
    + apply S. now apply chain_step in CC.
    + unfold q. destruct b as [|q' b]; cbn in CC.
      * replace (a' ++ [p; v; r]) with ((a' ++ [p]) ++ [v; r]) in CC by (rewrite <- app_assoc; reflexivity).
        now apply chain_step in CC.
      * replace (a' ++ p :: v :: q' :: b ++ [r]) with ((a' ++ [p]) ++ v :: q' :: b ++ [r]) in CC
          by (rewrite <- app_assoc; reflexivity).
        now apply chain_step in CC.
Qed.

Lemma cycle_vertices g r t : undirected g -> cycle_at (adj g) r t -> forall v, In v t -> vertex g v.
Proof.
  intros U C v I. destruct (cycle_two_neighbours g r t U C v I) as (a & b & _ & _ & _ & _ & _ & A & _).
  now apply (adj_vertex g v a U).
Qed.

Lemma cycle_in_induced h g r t : induced_subgraph h g -> (forall v, In v t -> vertex h v) ->
  cycle_at (adj g) r t -> cycle_at (adj h) r t.
Proof.
  intros (_ & _ & A) V (vs & E & N & L & C). exists vs. do 3 (split; [assumption|]).
  revert C. apply chain_impl. intros. apply A. auto.
Qed.
Lemma cycle_from_induced h g r t : induced_subgraph h g -> cycle_at (adj h) r t -> cycle_at (adj g) r t.
Proof.
  intros (_ & _ & A) (vs & E & N & L & C). exists vs. do 3 (split; [assumption|]).
  revert C. apply chain_impl. intros. now apply A.
Qed.

Lemma remove_leaves_cycles depth g : undirected g -> length g < depth ->
  exists h, remove_leaves depth g = Ok h /\ induced_subgraph h g /\
    two_neighbours h (vertex h) /\
    (forall S : nat -> Prop, (forall v, S v -> vertex g v) -> two_neighbours g S -> forall v, S v -> vertex h v) /\
    (forall r t, cycle_at (adj g) r t <-> cycle_at (adj h) r t).
Proof.
  intros U L. destruct (remove_leaves_ok depth g U L) as (h & E & I & T & M).
  exists h. split; [exact E|]. split; [exact I|]. split; [exact T|]. split; [exact M|].
  intros r t. split.
  - intros C. apply (cycle_in_induced h g); auto.
    apply (M (fun v => In v t)).
    + exact (cycle_vertices g r t U C).
    + exact (cycle_two_neighbours g r t U C).
  - apply (cycle_from_induced h g); auto.
Qed.

(** ** The recursion limit *)
Definition path_graph (n : nat) : list (nat * list nat) :=
  map (fun i => (i, filter (fun j => Nat.ltb j n) (match i with O => [1] | S k => [k; S (S k)] end))) (seq 0 n).

Definition pathlike (g : list (nat * list nat)) (a n : nat) : Prop :=
  undirected g /\ (forall v, vertex g v <-> a <= v < a + n) /\
  (forall u v, adj g u v <-> a <= u < a + n /\ a <= v < a + n /\ (u = S v \/ v = S u)).

Lemma path_graph_nodes n : map fst (path_graph n) = seq 0 n.
Proof. unfold path_graph. rewrite map_map. cbn. apply map_id. Qed.
Lemma path_graph_In n v l : In (v, l) (path_graph n) <->
  v < n /\ l = filter (fun j => Nat.ltb j n) (match v with O => [1] | S k => [k; S (S k)] end).
Proof.
  unfold path_graph. rewrite in_map_iff. split.
  - intros (i & E & I). apply in_seq in I. injection E as <- <-. split; [lia|reflexivity].
  - intros (L & ->). exists v. split; auto. apply in_seq. lia.
Qed.
Lemma path_graph_adj n u v : adj (path_graph n) u v <-> u < n /\ v < n /\ (u = S v \/ v = S u).
Proof.
  unfold adj. split.
  - intros (l & I & J). apply path_graph_In in I as (L & ->). apply filter_In in J as (J & K).
    apply Nat.ltb_lt in K. destruct u; cbn in J; lia.
  - intros (L & L' & Q). eexists. split; [apply path_graph_In; split; [exact L|reflexivity]|].
    apply filter_In. split; [destruct u; cbn; lia|apply Nat.ltb_lt; lia].
Qed.
Lemma path_graph_undirected n : undirected (path_graph n).
Proof.
  split; [|split].
  - rewrite path_graph_nodes. apply seq_NoDup.
  - intros v l I. apply path_graph_In in I as (_ & ->). apply NoDup_filter.
    destruct v; repeat constructor; cbn; lia.
  - intros u v H. apply path_graph_adj in H. apply path_graph_adj. lia.
Qed.
Lemma path_graph_pathlike n : pathlike (path_graph n) 0 n.
Proof.
  split; [apply path_graph_undirected|]. split.
  - intros v. unfold vertex. rewrite path_graph_nodes, in_seq. lia.
  - intros u v. rewrite path_graph_adj. lia.
Qed.

Lemma remove_leaves_pathlike depth : forall g a n, pathlike g a n -> 2 * depth <= n + 1 ->
  remove_leaves depth g = Throw RecursionErrorPy.
Proof.
  induction depth as [|d IH]; intros g a n (U & V & A) L; [reflexivity|]. cbn [remove_leaves].
  destruct (leaf_vertices_ok g U) as (leaves & -> & HL). cbn [bind].
  assert (HL' : forall v, In v leaves <-> a <= v < a + n /\ (v = a \/ S v = a + n)).
  { intros v. rewrite HL, V. split.
    - intros (R & Q). split; [auto|].
      destruct (Nat.eq_dec v a); [auto|]. destruct (Nat.eq_dec (S v) (a + n)); [auto|].
      exfalso. apply Q. exists (v - 1), (S v). rewrite !A. lia.
    - intros (R & Q). split; [auto|]. intros (x & y & ? & ? & ? & X & Y). apply A in X, Y. lia. }
  assert (In a leaves) by (apply HL'; lia).
  destruct leaves as [|x leaves]; [destruct H|].
  apply (IH _ (S a) (n - 2)); [|lia].
  assert (K : forall v, negb (memb v (x :: leaves)) = true <-> ~ In v (x :: leaves)).
  { intros v. destruct (memb v (x :: leaves)) eqn:E.
    - apply memb_In in E. cbn [negb]. split; [discriminate|tauto].
    - apply memb_not_In in E. cbn [negb]. tauto. }
  split; [now apply subgraph_undirected|]. split.
  - intros v. rewrite subgraph_vertex, K, HL', V. lia.
  - intros u v. rewrite subgraph_adj, !K, !HL', A. lia.
Qed.

(** ** Components *)
Lemma reach_trans g a b c : reach g a b -> reach g b c -> reach g a c.
Proof. intros H H'. induction H'; eauto using reach. Qed.

Lemma cycle_reach g r t : cycle_at (adj g) r t -> forall v, In v t -> reach g r v.
Proof.
  intros (vs & -> & _ & _ & C) v I. remember (r :: vs ++ [r]) as t eqn:E.
  assert (H0 : forall l a, chain (adj g) (a :: l) -> forall x, In x (a :: l) -> reach g a x).
  { induction l as [|b l IH]; intros a H x [<-|J]; try constructor; [destruct J|].
    inversion H; subst. apply (reach_trans g a b x).
    - apply reach_step with a; [constructor|auto].
    - apply IH; auto. }
  subst t. eapply H0; eauto.
Qed.

(** ** Disjoint paths *)
Lemma tvdp_shape s t a b : tour_from_vertex_disjoint_paths (s :: a ++ [t], s :: b ++ [t]) =
  Ok (s :: a ++ [t] ++ rev b ++ [s]).
Proof.
  cbn [tour_from_vertex_disjoint_paths].
  replace (length (s :: a ++ [t]) <=? 1) with false by (cbn; rewrite app_length; cbn; symmetry; apply Nat.leb_gt; lia).
  replace (length (s :: b ++ [t]) <=? 1) with false by (cbn; rewrite app_length; cbn; symmetry; apply Nat.leb_gt; lia).
  assert (H : forall l, nth_error (s :: l ++ [t]) (length (s :: l ++ [t]) - 1) = Some t).
  { intros l. change (s :: l ++ [t]) with ((s :: l) ++ [t]). rewrite app_length. cbn [length].
    rewrite nth_error_app2 by (cbn; lia). replace (S (length l) + 1 - 1 - length (s :: l)) with 0 by (cbn; lia). reflexivity. }
  rewrite (H a), (H b). cbn [nth_error]. rewrite !Nat.eqb_refl. cbn [negb].
  f_equal. cbn [rev]. rewrite rev_app_distr. cbn. rewrite <- app_assoc. reflexivity.
Qed.

Lemma steps_cost_join cost a x b : steps_cost cost (a ++ x :: b) = (steps_cost cost (a ++ [x]) + steps_cost cost (x :: b))%Z.
Proof.
  induction a as [|y a IH]; [cbn [app]; cbn; destruct b; lia|].
  cbn [app]. destruct a as [|z a]; cbn [app] in *.
  - cbn [steps_cost]. destruct b; lia.
  - change (steps_cost cost (y :: z :: a ++ x :: b)) with (cost y z + steps_cost cost (z :: a ++ x :: b))%Z.
    change (steps_cost cost (y :: z :: a ++ [x])) with (cost y z + steps_cost cost (z :: a ++ [x]))%Z.
    rewrite IH. lia.
Qed.
Lemma steps_cost_rev cost w : (forall u v, cost u v = cost v u) -> steps_cost cost (rev w) = steps_cost cost w.
Proof.
  intros S. induction w as [|u w IH]; auto. destruct w as [|v w]; auto.
  cbn [rev] in *. rewrite <- app_assoc. cbn [app]. rewrite steps_cost_join, IH.
  change (steps_cost cost (u :: v :: w)) with (cost u v + steps_cost cost (v :: w))%Z.
  cbn [steps_cost]. rewrite (S u v). lia.
Qed.

Lemma from_to_split s t w : from_to s t w -> 2 <= length w -> exists a, w = s :: a ++ [t].
Proof.
  intros (H & H') L. destruct w as [|x w]; [discriminate|]. injection H as ->.
  destruct w as [|y w]; [cbn in L; lia|].
  destruct (exists_last (l := y :: w) ltac:(discriminate)) as (a & z & E).
  exists a. rewrite E in *. f_equal. f_equal. f_equal.
  change (s :: a ++ [z]) with ((s :: a) ++ [z]) in H'. now rewrite last_last in H'.
Qed.

Lemma tvdp_paths s t first second :
  from_to s t first -> from_to s t second -> 2 <= length first -> 2 <= length second ->
  exists a b, first = s :: a ++ [t] /\ second = s :: b ++ [t] /\
    tour_from_vertex_disjoint_paths (first, second) = Ok (s :: a ++ [t] ++ rev b ++ [s]).
Proof.
  intros F F' L L'. destruct (from_to_split s t first F L) as (a & ->).
  destruct (from_to_split s t second F' L') as (b & ->). exists a, b. split; [auto|]. split; [auto|].
  apply tvdp_shape.
Qed.

Lemma tour_from_paths_ok (R : nat -> nat -> Prop) cost s t first second :
  (forall u v, R u v -> R v u) -> (forall u v, cost u v = cost v u) ->
  from_to s t first -> from_to s t second -> 2 <= length first -> 2 <= length second ->
  chain R first -> chain R second -> NoDup first -> NoDup second ->
  (forall v, In v first -> In v second -> v = s \/ v = t) ->
  exists tour, tour_from_vertex_disjoint_paths (first, second) = Ok tour /\
    (exists vs, tour = s :: vs ++ [s] /\ NoDup (s :: vs) /\ In t vs /\ chain R tour /\
       length vs = length first + length second - 3) /\
    (forall v, In v tour <-> In v first \/ In v second) /\
    steps_cost cost tour = (steps_cost cost first + steps_cost cost second)%Z.
Proof.
  intros RS CS F F' L L' C C' N N' D.
  destruct (tvdp_paths s t first second F F' L L') as (a & b & -> & -> & E).
  exists (s :: a ++ [t] ++ rev b ++ [s]). split; [exact E|]. split; [|split].
  - exists (a ++ [t] ++ rev b). split; [now rewrite <- !app_assoc|].
    split; [|split; [|split]].
    + inversion N; inversion N'; subst. constructor.
      * rewrite !in_app_iff, <- in_rev. rewrite in_app_iff in *. tauto.
      * apply NoDup_app_iff. apply NoDup_app_iff in H2 as (Na & _ & Da). apply NoDup_app_iff in H6 as (Nb & _ & Db).
        split; [auto|]. split.
        -- cbn. constructor.
           ++ rewrite <- in_rev. intros I. apply (Db t); cbn; auto.
           ++ now apply NoDup_rev.
        -- intros x I J. cbn in J. rewrite <- in_rev in J. destruct J as [<-|J].
           ++ apply (Da t); cbn; auto.
           ++ destruct (D x) as [-> | ->].
              ** cbn. rewrite in_app_iff. auto.
              ** cbn. rewrite in_app_iff. auto.
              ** apply H1. rewrite in_app_iff. auto.
              ** apply (Da t); cbn; auto.
    + rewrite in_app_iff. cbn. auto.
    + change (s :: a ++ [t] ++ rev b ++ [s]) with ((s :: a) ++ t :: (rev b ++ [s])).
      apply chain_join; [exact C|].
      replace (t :: rev b ++ [s]) with (rev (s :: b ++ [t])); [now apply chain_rev|].
      cbn [rev]. rewrite rev_app_distr. reflexivity.
    + cbn [length app]. rewrite !app_length. cbn [length app]. rewrite ?rev_length, ?app_length. cbn. lia.
  - intros v. cbn. rewrite !in_app_iff. cbn. rewrite !in_app_iff, <- in_rev. cbn. tauto.
  - change (s :: a ++ [t] ++ rev b ++ [s]) with ((s :: a) ++ t :: (rev b ++ [s])).
    rewrite steps_cost_join. f_equal.
    replace (t :: rev b ++ [s]) with (rev (s :: b ++ [t])); [now apply steps_cost_rev|].
    cbn [rev]. rewrite rev_app_distr. reflexivity.
Qed.

(** When it raises. *)
Lemma tvdp_cases first second :
  (exists tour, tour_from_vertex_disjoint_paths (first, second) = Ok tour /\
     exists s t, from_to s t first /\ from_to s t second /\ 2 <= length first /\ 2 <= length second) \/
  (tour_from_vertex_disjoint_paths (first, second) = Throw ValueErrorPy /\
     ~ exists s t, from_to s t first /\ from_to s t second /\ 2 <= length first /\ 2 <= length second).
Proof.
  destruct (le_lt_dec (length first) 1) as [L|L].
  { right. split; [|intros (s & t & ?); lia]. cbn. apply Nat.leb_le in L. now rewrite L. }
  destruct (le_lt_dec (length second) 1) as [L'|L'].
  { right. split; [|intros (s & t & ?); lia]. cbn. rewrite (proj2 (Nat.leb_gt _ _) L). apply Nat.leb_le in L'. now rewrite L'. }
  assert (F : forall w, 1 < length w -> exists s t, from_to s t w /\ nth_error w 0 = Some s /\ nth_error w (length w - 1) = Some t).
  { intros w Lw. destruct w as [|x w]; [cbn in Lw; lia|].
    destruct (exists_last (l := x :: w) ltac:(discriminate)) as (a & z & E). exists x, z.
    split; [split; [reflexivity|rewrite E; apply last_last]|]. split; [reflexivity|].
    rewrite E, app_length. rewrite nth_error_app2 by (cbn; lia).
    replace (length a + length [z] - 1 - length a) with 0 by (cbn; lia). reflexivity. }
  destruct (F first L) as (s & t & F1 & A1 & Z1). destruct (F second L') as (s' & t' & F2 & A2 & Z2).
  assert (UF : forall w s t s' t', from_to s t w -> from_to s' t' w -> s = s' /\ t = t').
  { intros w ? ? ? ? (H & H') (K & K'). rewrite H in K. injection K as <-. split; congruence. }
  destruct (Nat.eq_dec s s') as [<-|Q].
  - destruct (Nat.eq_dec t t') as [<-|Q'].
    + left. destruct (tvdp_paths s t first second F1 F2) as (a & b & _ & _ & E); [lia..|].
      eexists. split; [exact E|]. exists s, t. auto.
    + right. split.
      * cbn [tour_from_vertex_disjoint_paths].
        rewrite (proj2 (Nat.leb_gt _ _) L), (proj2 (Nat.leb_gt _ _) L'), A1, A2, Z1, Z2, Nat.eqb_refl.
        cbn [negb]. apply Nat.eqb_neq in Q'. now rewrite Q'.
      * intros (x & y & X & Y & _). destruct (UF _ _ _ _ _ X F1), (UF _ _ _ _ _ Y F2). congruence.
  - right. split.
    + cbn [tour_from_vertex_disjoint_paths].
      rewrite (proj2 (Nat.leb_gt _ _) L), (proj2 (Nat.leb_gt _ _) L'), A1, A2, Z1, Z2.
      apply Nat.eqb_neq in Q. now rewrite Q.
    + intros (x & y & X & Y & _). destruct (UF _ _ _ _ _ X F1), (UF _ _ _ _ _ Y F2). congruence.
Qed.

(** ** Checking concrete graphs *)
Definition nodupb (l : list nat) : bool := Nat.eqb (length (nodup Nat.eq_dec l)) (length l).
Lemma nodupb_ok l : nodupb l = true -> NoDup l.
Proof.
  unfold nodupb. intros E. apply Nat.eqb_eq in E.
  apply NoDup_incl_NoDup with (nodup Nat.eq_dec l); [apply NoDup_nodup|lia|].
  intros x I. now apply nodup_In in I.
Qed.
Definition adjb (g : list (nat * list nat)) (u v : nat) : bool :=
  existsb (fun '(u', l) => Nat.eqb u' u && memb v l) g.
Lemma adjb_ok g u v : adjb g u v = true <-> adj g u v.
Proof.
  unfold adjb, adj. rewrite existsb_exists. split.
  - intros ([u' l] & I & E). apply andb_prop in E as (E & M). apply Nat.eqb_eq in E. subst. apply memb_In in M. eauto.
  - intros (l & I & M). exists (u, l). split; [auto|]. rewrite Nat.eqb_refl. cbn. now apply memb_In.
Qed.
Definition undirectedb (g : list (nat * list nat)) : bool :=
  nodupb (map fst g) && forallb (fun '(v, l) => nodupb l && forallb (fun u => adjb g u v) l) g.
Lemma undirectedb_ok g : undirectedb g = true -> undirected g.
Proof.
  unfold undirectedb. intros E. apply andb_prop in E as (E & F). rewrite forallb_forall in F.
  split; [now apply nodupb_ok|]. split.
  - intros v l I. specialize (F _ I). apply andb_prop in F as (F & _). now apply nodupb_ok.
  - intros u v (l & I & J). specialize (F _ I). apply andb_prop in F as (_ & F).
    rewrite forallb_forall in F. apply adjb_ok. auto.
Qed.
Fixpoint chainb (g : list (nat * list nat)) (l : list nat) : bool :=
  match l with
  | u :: ((v :: _) as l') => adjb g u v && chainb g l'
  | _ => true
  end.
Lemma chainb_ok g l : chainb g l = true <-> chain (adj g) l.
Proof.
  induction l as [|u l IH]; [split; [constructor|auto]|]. destruct l as [|v l]; [split; [constructor|auto]|].
  change (chainb g (u :: v :: l)) with (adjb g u v && chainb g (v :: l)). rewrite andb_true_iff, adjb_ok, IH. split.
  - intros (A & C). now constructor.
  - intros C. inversion C; auto.
Qed.
Lemma cycle_check g r vs : nodupb (r :: vs) && Nat.leb 2 (length vs) && chainb g (r :: vs ++ [r]) = true ->
  cycle_at (adj g) r (r :: vs ++ [r]).
Proof.
  intros E. apply andb_prop in E as (E & C). apply andb_prop in E as (N & L).
  exists vs. split; [auto|]. split; [now apply nodupb_ok|]. split; [now apply Nat.leb_le|]. now apply chainb_ok.
Qed.
Lemma adj_list g u v l : undirected g -> dget g u = Some l -> adj g u v -> In v l.
Proof. intros (N & _) E (l' & I & J). apply (dget_some _ _ _ N) in I. congruence. Qed.
