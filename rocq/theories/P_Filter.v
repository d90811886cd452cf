(** * P_Filter: proofs about views of a graph *)
From Coq Require Import String Sorting.Sorted Permutation.
From Verif Require Import Base Graph M_Walk M_Graph M_Solution M_Messages M_Filter Spec Spec_Filter P_Base P_Lookup P_Solution.
Open Scope nat_scope.

Lemma pass_ok {A} (f : A -> res bool) (b : A -> bool) l : (forall x, In x l -> f x = Ok (b x)) -> pass f l = Ok (filter b l).
Proof.
  intro H. unfold pass.
  enough (X : forall acc, foldM (fun acc x => do b <- f x; Ok (if b : bool then acc ++ [x] else acc)%list) l acc = Ok (acc ++ filter b l)%list) by apply X.
  induction l as [|x l IH]; intro acc.
  - cbn. now rewrite app_nil_r.
  - cbn [foldM filter]. rewrite (H x (or_introl eq_refl)). cbn [bind]. rewrite IH by (intros; apply H; now right).
    destruct (b x); [now rewrite <- app_assoc|reflexivity].
Qed.

Lemma pass_ub {A} (f : A -> res bool) u x r : forall l, (forall y, In y l -> exists b, f y = Ok b) -> f x = UB u -> pass f (l ++ x :: r)%list = UB u.
Proof.
  intros l H E. unfold pass.
  enough (X : forall acc, foldM (fun acc x => do b <- f x; Ok (if b : bool then acc ++ [x] else acc)%list) (l ++ x :: r)%list acc = UB u) by apply X.
  induction l as [|y l IH]; intro acc; cbn [foldM app].
  - rewrite E. reflexivity.
  - destruct (H y (or_introl eq_refl)) as (b & ->). cbn [bind]. apply IH. intros; apply H; now right.
Qed.

(** The mark as a function. *)
Definition mk (mark : list bool) (v : nat) : bool := nth v mark false.

Lemma mk_get mark v : v < List.length mark -> vget mark v = Ok (mk mark v).
Proof. intro H. destruct (vget_ok mark v H) as (b & E & N). rewrite E. unfold mk. rewrite (nth_error_nth mark v false N). reflexivity. Qed.

Lemma mk_marked mark v : marked mark v <-> mk mark v = true.
Proof.
  unfold marked, mk. split.
  - intro H. exact (nth_error_nth mark v false H).
  - intro H. destruct (nth_error mark v) eqn:E; [rewrite (nth_error_nth mark v false E) in H; congruence|].
    apply nth_error_None in E. rewrite nth_overflow in H by exact E. discriminate.
Qed.

Lemma mk_unmarked mark v : ~ marked mark v <-> mk mark v = false.
Proof. rewrite mk_marked. destruct (mk mark v); intuition congruence. Qed.

Lemma vertices_ok g mark : gn g <= List.length mark -> exists l, view_vertices g mark = Ok l /\ StronglySorted lt l /\
  forall v, In v l <-> v < gn g /\ marked mark v.
Proof.
  intro L. eexists. split; [|split].
  - unfold view_vertices. apply pass_ok with (b := mk mark). intros v I. apply in_seq in I. apply mk_get. lia.
  - apply StronglySorted_filter_seq.
  - intro v. rewrite filter_In, mk_marked. unfold vertices. rewrite in_seq. intuition lia.
Qed.

Lemma vertices_short g mark : List.length mark < gn g -> view_vertices g mark = UB VecOOB.
Proof.
  intro L. unfold view_vertices, vertices.
  replace (gn g) with (List.length mark + S (gn g - S (List.length mark))) by lia. rewrite seq_app. cbn [seq plus].
  apply pass_ub.
  - intros y I. apply in_seq in I. exists (mk mark y). apply mk_get. lia.
  - unfold bool_vertex_filter, vget. rewrite (proj2 (nth_error_None mark (List.length mark))) by lia. reflexivity.
Qed.

Lemma edge_filter_ok mark u v : u < List.length mark -> v < List.length mark -> bool_edge_filter mark (u, v) = Ok (mk mark u || mk mark v)%bool.
Proof. intros U V. unfold bool_edge_filter. cbn [fst snd]. rewrite mk_get by exact U. cbn [bind]. destruct (mk mark u); [reflexivity|]. apply mk_get. exact V. Qed.

Lemma ends_of g e : graph_ok g -> forall p, nth_error (ge g) e = Some p -> fst p < gn g /\ snd p < gn g.
Proof. intros G (a, b) N. apply nth_error_In in N. exact (G a b N). Qed.

(** Both ends are marked. *)
Definition both (g : graph) (mark : list bool) (e : nat) : bool :=
  match nth_error (ge g) e with Some p => mk mark (fst p) && mk mark (snd p) | None => false end.

Lemma both_induced g mark e : both g mark e = true <-> induced_edge g mark e.
Proof.
  unfold both, induced_edge, joins. split.
  - destruct (nth_error (ge g) e) as [(a, b)|] eqn:E; [|discriminate]. cbn. rewrite andb_true_iff, <- !mk_marked. intros (A & B). exists a, b. auto.
  - intros (u & v & [E|E] & U & V); rewrite E; cbn; apply andb_true_iff; rewrite <- !mk_marked; auto.
Qed.

Lemma edges_are g mark : graph_ok g -> gn g <= List.length mark -> view_edges g mark = Ok (filter (both g mark) (get_edge_vector_of_graph g)).
Proof.
  intros G L. unfold view_edges. apply pass_ok. intros e I. unfold get_edge_vector_of_graph in I. apply in_seq in I.
  destruct (nth_error (ge g) e) as [(a, b)|] eqn:E; [|apply nth_error_None in E; lia].
  destruct (ends_of g e G _ E) as (A & B). cbn [fst snd] in *. unfold endpoints, both. rewrite E. cbn [bind fst snd].
  rewrite edge_filter_ok by lia. cbn [bind]. unfold bool_vertex_filter. rewrite !mk_get by lia. cbn [bind].
  destruct (mk mark a), (mk mark b); reflexivity.
Qed.

Lemma edges_ok g mark : graph_ok g -> gn g <= List.length mark -> exists l, view_edges g mark = Ok l /\ StronglySorted lt l /\
  forall e, In e l <-> induced_edge g mark e.
Proof.
  intros G L. eexists. split; [apply edges_are; assumption|]. split; [apply StronglySorted_filter_seq|].
  intro e. rewrite filter_In, both_induced. split; [tauto|]. intro H. split; [|exact H]. destruct H as (u & v & J & _).
  apply (proj1 (proj2 (edge_vector_ok g))). eauto.
Qed.

Lemma nbrs_joins g u v : In v (nbrs g u) <-> exists e, joins g e u v.
Proof.
  unfold nbrs, joins. rewrite in_flat_map. split.
  - intros ((a, b) & I & J). apply In_nth_error in I as (e & E). exists e. unfold adj_of in J. cbn in J. apply in_app_iff in J as [J|J].
    + destruct (Nat.eqb_spec a u) as [->|]; [|destruct J]. destruct J as [->|[]]. now left.
    + destruct (Nat.eqb_spec b u) as [->|]; [|destruct J]. destruct J as [->|[]]. now right.
  - intros (e & [E|E]); apply nth_error_In in E; eexists; (split; [exact E|]); unfold adj_of; cbn; apply in_app_iff; rewrite Nat.eqb_refl; cbn; auto.
Qed.

Lemma nbrs_lt g u v : graph_ok g -> In v (nbrs g u) -> v < gn g.
Proof. intros G I. apply nbrs_joins in I as (e & [E|E]); apply nth_error_In in E; apply G in E; tauto. Qed.

Lemma count_filter (p : nat -> bool) v l : count_occ Nat.eq_dec (filter p l) v = if p v then count_occ Nat.eq_dec l v else 0.
Proof.
  induction l as [|x l IH]; [destruct (p v); reflexivity|]. cbn [filter count_occ]. destruct (Nat.eq_dec x v) as [->|N].
  - destruct (p v); [|exact IH]. cbn. destruct (Nat.eq_dec v v); [f_equal; exact IH|congruence].
  - destruct (p x); [|exact IH]. cbn. destruct (Nat.eq_dec x v); [congruence|exact IH].
Qed.

Lemma adjacent_is g mark u : graph_ok g -> gn g <= List.length mark -> u < gn g -> view_adjacent g mark u = Ok (filter (mk mark) (nbrs g u)).
Proof.
  intros G L U. unfold view_adjacent, adjacent. rewrite (proj2 (Nat.ltb_lt u (gn g)) U). cbn [bind]. apply pass_ok. intros v I.
  pose proof (nbrs_lt g u v G I). rewrite edge_filter_ok by lia. cbn [bind]. unfold bool_vertex_filter. rewrite mk_get by lia.
  destruct (mk mark u), (mk mark v); reflexivity.
Qed.

Lemma adjacent_ok g mark u : graph_ok g -> gn g <= List.length mark -> u < gn g -> exists l, view_adjacent g mark u = Ok l /\
  forall v, (marked mark v -> times v l = times v (nbrs g u)) /\ (~ marked mark v -> ~ In v l).
Proof.
  intros G L U. eexists. split; [apply adjacent_is; assumption|]. intro v. unfold times. rewrite count_filter. split; intro H.
  - apply mk_marked in H. rewrite H. reflexivity.
  - rewrite filter_In. apply mk_unmarked in H. intuition congruence.
Qed.

Lemma adjacent_edges g mark u : graph_ok g -> gn g <= List.length mark -> u < gn g -> marked mark u -> exists l es,
  view_adjacent g mark u = Ok l /\ view_edges g mark = Ok es /\ forall v, In v l <-> exists e, In e es /\ joins g e u v.
Proof.
  intros G L U M. destruct (edges_ok g mark G L) as (es & E & _ & H). exists (filter (mk mark) (nbrs g u)), es.
  split; [apply adjacent_is; assumption|]. split; [exact E|]. intro v. rewrite filter_In, nbrs_joins, <- mk_marked. split.
  - intros ((e & J) & V). exists e. split; [apply H; exists u, v; auto|exact J].
  - intros (e & I & J). split; [eauto|]. apply H in I as (a & b & J' & A & B). unfold joins in *.
    destruct J as [J|J], J' as [J'|J']; rewrite J in J'; injection J' as -> ->; assumption.
Qed.

Lemma edge_ok g mark u v : graph_ok g -> gn g <= List.length mark -> u < gn g -> exists o, view_edge g mark u v = Ok o /\
  forall e, o = Some e <-> step_edge g u v e /\ (marked mark u \/ marked mark v).
Proof.
  intros G L U. unfold view_edge, edge. rewrite (proj2 (Nat.ltb_lt u (gn g)) U). cbn [bind].
  assert (F : forall e, find_edge (ge g) 0 u v = Some e <-> step_edge g u v e).
  { intro e. split.
    - intro E. destruct (find_edge_Some _ _ _ _ _ E) as (_ & (p & N & J) & M). rewrite Nat.sub_0_r in N. split; [apply joins_joinsb; eauto|].
      intros f H. apply joins_joinsb in H as (q & N' & J'). specialize (M f q N' J'). lia.
    - intros (J & M). destruct (find_edge (ge g) 0 u v) as [f|] eqn:E.
      + destruct (find_edge_Some _ _ _ _ _ E) as (_ & (p & N & J') & M'). rewrite Nat.sub_0_r in N. f_equal.
        assert (A : e <= f) by (apply M, joins_joinsb; eauto). apply joins_joinsb in J as (q & N' & J''). specialize (M' e q N' J''). lia.
      + apply joins_joinsb in J as (q & N' & J''). rewrite (find_edge_None _ _ _ _ E e q N') in J''. discriminate. }
  destruct (find_edge (ge g) 0 u v) as [f|].
  - destruct (proj1 (F f) eq_refl) as (J & M). destruct J as [N|N]; unfold endpoints; rewrite N; cbn [bind];
      destruct (ends_of g f G _ N) as (A & B); cbn [fst snd] in *; rewrite edge_filter_ok by lia; cbn [bind].
    + exists (if (mk mark u || mk mark v)%bool then Some f else None). split; [reflexivity|]. intro e.
      rewrite <- F, !mk_marked. destruct (mk mark u), (mk mark v); cbn; intuition congruence.
    + exists (if (mk mark v || mk mark u)%bool then Some f else None). split; [reflexivity|]. intro e.
      rewrite <- F, !mk_marked. destruct (mk mark u), (mk mark v); cbn; intuition congruence.
  - exists None. split; [reflexivity|]. intro e. rewrite <- F. intuition discriminate.
Qed.

Lemma induced_view g mark : graph_ok g -> no_parallel g -> gn g <= List.length mark -> exists vs es es',
  view_vertices g mark = Ok vs /\ view_edges g mark = Ok es /\ get_edges_induced g vs = Ok es' /\ NoDup es' /\
  forall e, In e es' <-> In e es /\ forall v, ~ joins g e v v.
Proof.
  intros G NP L. destruct (vertices_ok g mark L) as (vs & E & S & V). destruct (edges_ok g mark G L) as (es & E' & _ & H).
  assert (ND : NoDup vs).
  { clear - S. induction S as [|x l S IH F]; constructor; [|exact IH]. intro I. rewrite Forall_forall in F. specialize (F x I). lia. }
  destruct (induced_ok g vs) as (es' & E'' & N & K); [apply Forall_forall; intros x I; apply V in I; tauto|exact ND|].
  exists vs, es, es'. do 4 (split; [assumption|]). intro e. rewrite K, H. split.
  - intros (u & v & U & W & D & (J & _)). split.
    + apply V in U, W. exists u, v. tauto.
    + intros x Jx. unfold joins in J, Jx. destruct J as [J|J], Jx as [Jx|Jx]; rewrite J in Jx; injection Jx as -> ->; congruence.
  - intros ((u & v & J & U & W) & D). exists u, v.
    assert (B : u < gn g /\ v < gn g) by (destruct J as [J|J]; apply nth_error_In in J; apply G in J; tauto).
    do 2 (split; [apply V; tauto|]). split; [intros ->; exact (D v J)|]. split; [exact J|]. intros f J'. rewrite (NP e f u v J J'). lia.
Qed.

(** ** Counting *)
Lemma count_loop {A} (l : list A) : forall k, (0 <= k)%Z ->
  foldM (fun n _ => chk (n + 1)) l k = if (k + Z.of_nat (List.length l) <=? int_max)%Z then Ok (k + Z.of_nat (List.length l))%Z
    else if (k <=? int_max)%Z then UB IntOverflow else match l with [] => Ok k | _ => UB IntOverflow end.
Proof.
  induction l as [|x l IH]; intros k K.
  - cbn [foldM List.length]. rewrite Z.add_0_r. destruct (k <=? int_max)%Z; reflexivity.
  - cbn [foldM]. unfold chk at 1. assert (int_min <=? k + 1 = true)%Z as -> by (apply Z.leb_le; unfold int_min; lia). cbn [andb].
    destruct (Z.leb_spec (k + 1) int_max) as [B|B]; cbn [bind].
    + rewrite IH by lia. replace (k + 1 + Z.of_nat (List.length l))%Z with (k + Z.of_nat (List.length (x :: l)))%Z by (cbn [List.length]; lia).
      destruct (_ <=? int_max)%Z; [reflexivity|]. rewrite (proj2 (Z.leb_le _ _) B).
      destruct (Z.leb_spec k int_max); [reflexivity|lia].
    + destruct (Z.leb_spec (k + Z.of_nat (List.length (x :: l))) int_max) as [C|C]; [cbn [List.length] in C; lia|].
      destruct (k <=? int_max)%Z; reflexivity.
Qed.

Lemma filter_snd_length {A} (p : nat -> bool) (l : list A) k :
  List.length (map snd (filter (fun ep => p (fst ep)) (combine (seq k (List.length l)) l))) = List.length (filter p (seq k (List.length l))).
Proof.
  revert k. induction l as [|x l IH]; intro k; [reflexivity|]. cbn [List.length seq combine filter fst]. destruct (p k); cbn [map List.length]; rewrite IH; reflexivity.
Qed.

Lemma count_ok g s es : (0 < s_den s)%Z -> NoDup es -> (forall e, In e es <-> exists u v, joins g e u v /\ (s_den s < s_num s e * 1000000000)%Z) ->
  num_edges_in_filtered_graph (filter_positive g s) =
    if (Z.of_nat (List.length es) <=? int_max)%Z then Ok (Z.of_nat (List.length es)) else UB IntOverflow.
Proof.
  intros D N H. unfold num_edges_in_filtered_graph. rewrite count_loop by lia. cbn [filter_positive ge].
  unfold filter_positive. cbn [ge]. rewrite filter_snd_length.
  assert (P : Permutation (filter (is_var_positive s) (seq 0 (List.length (ge g)))) es).
  { apply NoDup_Permutation; [apply NoDup_filter, seq_NoDup|exact N|]. intro e. rewrite filter_In, H, (positive_spec s e D), in_seq. split.
    - intros (I & Q). destruct (nth_error (ge g) e) as [(a, b)|] eqn:E; [|apply nth_error_None in E; lia]. exists a, b. split; [now left|exact Q].
    - intros (u & v & J & Q). split; [|exact Q]. destruct J as [J|J]; apply nth_error_Some_lt in J; lia. }
  rewrite (Permutation_length P). cbn [Z.add]. reflexivity.
Qed.

(** ** Pairs *)
Lemma rebuild es : forall g, add_edges_to_graph g es = mkGraph (fold_left (fun n p => Nat.max n (S (Nat.max (fst p) (snd p)))) es (gn g)) (ge g ++ es)%list.
Proof.
  induction es as [|(u, v) es IH]; intro g; cbn [add_edges_to_graph fold_left].
  - rewrite app_nil_r. destruct g; reflexivity.
  - change (fold_left (fun g e => add_edge g (fst e) (snd e)) es (add_edge g (fst (u, v)) (snd (u, v)))) with (add_edges_to_graph (add_edge g u v) es).
    rewrite IH. cbn [add_edge gn ge fst snd]. rewrite <- app_assoc. reflexivity.
Qed.

Lemma max_le es : forall k n, k <= n -> (forall a b, In (a, b) es -> a < n /\ b < n) ->
  fold_left (fun n p => Nat.max n (S (Nat.max (fst p) (snd p)))) es k <= n.
Proof.
  induction es as [|(a, b) es IH]; intros k n K H; [exact K|]. cbn [fold_left fst snd]. apply IH.
  - destruct (H a b (or_introl eq_refl)). lia.
  - intros; apply H; now right.
Qed.

Lemma max_ge es : forall k, k <= fold_left (fun n p => Nat.max n (S (Nat.max (fst p) (snd p)))) es k.
Proof. induction es as [|p es IH]; intro k; [cbn; lia|]. cbn [fold_left]. etransitivity; [|apply IH]. lia. Qed.

Lemma max_in es : forall k a b, In (a, b) es -> S (Nat.max a b) <= fold_left (fun n p => Nat.max n (S (Nat.max (fst p) (snd p)))) es k.
Proof.
  induction es as [|p es IH]; intros k a b I; [destruct I|]. cbn [fold_left]. destruct I as [->|I]; [|exact (IH _ _ _ I)].
  cbn [fst snd]. etransitivity; [|apply max_ge]. lia.
Qed.

Lemma copy_ok g : graph_ok g -> (forall n, gn g = S n -> exists e v, joins g e n v) -> exists ps,
  get_vertex_pair_vector_from_graph g = Ok ps /\ add_edges_to_graph (mkGraph 0 []) ps = g.
Proof.
  intros G H. exists (ge g). split; [apply edge_vector_ok|]. rewrite rebuild. cbn [gn ge app]. destruct g as (n, es). cbn [gn ge] in *. f_equal.
  apply Nat.le_antisymm; [apply max_le; [lia|exact G]|]. destruct n as [|n]; [lia|]. destruct (H n eq_refl) as (e & v & [J|J]); apply nth_error_In in J; cbn [ge] in J;
    eapply Nat.le_trans; try exact (max_in _ 0 _ _ J); lia.
Qed.

Lemma print_ok g : print_edges g (get_edge_vector_of_graph g) = Ok (print_pairs (ge g)).
Proof.
  unfold print_edges, get_edge_vector_of_graph, print_pairs.
  assert (X : forall l a, (forall i x, nth_error l i = Some x -> nth_error (ge g) (a + i) = Some x) ->
    mapM (fun e => do p <- endpoints g e; Ok (vstr (fst p) ++ ", " ++ vstr (snd p))%string) (seq a (List.length l)) =
    Ok (map (fun p => (vstr (fst p) ++ ", " ++ vstr (snd p))%string) l)).
  { induction l as [|x l IH]; intros a H; [reflexivity|]. cbn [List.length seq mapM map]. unfold endpoints at 1.
    pose proof (H 0 x eq_refl) as H0. rewrite Nat.add_0_r in H0. rewrite H0. cbn [bind]. rewrite IH; [reflexivity|].
    intros i y Hi. specialize (H (S i) y Hi). now rewrite Nat.add_succ_r in H. }
  apply X. auto.
Qed.

(** ** The log of a solution *)
Definition line (text : Z * Z -> string) (g : graph) (s : sol) (e : nat) : string :=
  match nth_error (ge g) e with
  | Some p => ("Edge " ++ vstr (fst p) ++ "-" ++ vstr (snd p) ++ " has value " ++ text (s_num s e, s_den s))%string
  | None => ""%string
  end.

Lemma log_is text g s m : (forall e u v, joins g e u v -> m e = Some e) ->
  log_solution_edges text g s m = Ok (map (line text g s) (filter (is_var_positive s) (get_edge_vector_of_graph g))).
Proof.
  intro M. unfold log_solution_edges.
  assert (X : forall l acc, (forall e, In e l -> e < List.length (ge g)) ->
    foldM (fun acc e => match m e with None => UB NullDeref | Some var => if is_var_positive s var then
        do p <- endpoints g e;
        Ok (acc ++ [("Edge " ++ vstr (fst p) ++ "-" ++ vstr (snd p) ++ " has value " ++ text (s_num s var, s_den s))%string])%list
      else Ok acc end) l acc = Ok (acc ++ map (line text g s) (filter (is_var_positive s) l))%list).
  { induction l as [|e l IH]; intros acc H; [cbn; now rewrite app_nil_r|].
    assert (L := H e (or_introl eq_refl)). destruct (nth_error (ge g) e) as [(a, b)|] eqn:E; [|apply nth_error_None in E; lia].
    cbn [foldM filter]. rewrite (M e a b (or_introl E)). destruct (is_var_positive s e).
    - unfold endpoints. rewrite E. cbn [bind fst snd]. rewrite IH by (intros; apply H; now right). cbn [map]. rewrite <- app_assoc. cbn [app].
      unfold line at 2. rewrite E. reflexivity.
    - cbn [bind]. apply IH. intros; apply H; now right. }
  apply (X _ []). intros e I. apply in_seq in I. lia.
Qed.

Lemma log_ok text g s m : (0 < s_den s)%Z -> (forall e u v, joins g e u v -> m e = Some e) -> exists es lines,
  log_solution_edges text g s m = Ok lines /\ StronglySorted lt es /\
  (forall e, In e es <-> exists u v, joins g e u v /\ (s_den s < s_num s e * 1000000000)%Z) /\
  Forall2 (fun e l => exists u v, nth_error (ge g) e = Some (u, v) /\
    l = ("Edge " ++ vstr u ++ "-" ++ vstr v ++ " has value " ++ text (s_num s e, s_den s))%string) es lines.
Proof.
  intros D M. exists (filter (is_var_positive s) (get_edge_vector_of_graph g)). eexists. split; [apply log_is; exact M|]. split; [apply StronglySorted_filter_seq|]. split.
  - intro e. rewrite filter_In, (positive_spec s e D), (proj1 (proj2 (edge_vector_ok g))). split.
    + intros ((u & v & J) & Q). eauto.
    + intros (u & v & J & Q). eauto.
  - assert (X : forall e, In e (filter (is_var_positive s) (get_edge_vector_of_graph g)) -> e < List.length (ge g)).
    { intros e I. apply filter_In in I as (I & _). apply in_seq in I. lia. }
    induction (filter _ _) as [|e l IH]; [constructor|]. cbn [map]. constructor; [|apply IH; intros; apply X; now right].
    destruct (nth_error (ge g) e) as [(a, b)|] eqn:E; [|apply nth_error_None in E; specialize (X e (or_introl eq_refl)); lia].
    exists a, b. split; [reflexivity|]. unfold line. rewrite E. reflexivity.
Qed.

Lemma log_null text g s m e u v : joins g e u v -> m e = None -> (forall f, f < e -> m f = Some f) -> log_solution_edges text g s m = UB NullDeref.
Proof.
  intros J N M. unfold log_solution_edges, get_edge_vector_of_graph.
  assert (L : e < List.length (ge g)) by (destruct J as [J|J]; apply nth_error_Some_lt in J; exact J).
  replace (List.length (ge g)) with (e + S (List.length (ge g) - S e)) by lia. rewrite seq_app, foldM_app. cbn [plus].
  match goal with |- bind ?x _ = _ => assert (X : exists acc, x = Ok acc) end.
  { assert (H : forall f, In f (seq 0 e) -> f < e) by (intros f I; apply in_seq in I; lia).
    match goal with |- exists acc, foldM ?h _ _ = _ => enough (X : forall a, exists acc, foldM h (seq 0 e) a = Ok acc) by apply X end.
    induction (seq 0 e) as [|f l IH]; intro acc; [cbn; eauto|]. cbn [foldM]. assert (F := H f (or_introl eq_refl)). rewrite (M f F).
    destruct (is_var_positive s f); cbn [bind].
    - unfold endpoints. destruct (nth_error (ge g) f) eqn:E; [|apply nth_error_None in E; lia]. cbn [bind]. apply IH. intros; apply H; now right.
    - apply IH. intros; apply H; now right. }
  destruct X as (acc & ->). cbn [bind seq foldM]. rewrite N. reflexivity.
Qed.
