(** * P_RunAlg: proofs about running the algorithm of a vial *)
From Coq Require Import Lia Permutation.
From Verif Require Import Base Graph Spec Spec_Cycle Spec_Cover Spec_Flow Spec_Python Spec_PyWrap Spec_Rename Spec_ILP Spec_Solve Spec_Suurballe
  M_Walk M_Graph M_Dijkstra M_Solution M_ILP M_MaxFlow M_Solve M_Python M_PyCycle M_PyWrap M_Suurballe M_DisjointMap
  Spec_Split M_Dataset Spec_Dataset M_RunAlg Spec_RunAlg.
From Verif Require Import P_Base P_Dijkstra P_Cycle P_ILP P_Model P_Solve P_Renaming P_Bindings P_SolveBind P_Python P_PyCycle P_PyHeur P_PyWrap P_Suurballe P_Split P_SplitMap P_Dataset.
Open Scope nat_scope.

Local Notation sum := Spec_Dataset.zsum.

(** ** Costs and prizes of lists of pairs *)

Section LISTS.
Context (W : pygraph) (G : graph) (c p : list Z).
Context (HE : ge G = py_edges W) (U : undirected (pg_adj W))
  (SG : same_graph (pg_adj W) (pg_cost W) (pg_prize W) G c p).

Let costs := get_edge_attributes W.

Lemma edge_get_In u v x : edge_get costs u v = Some x -> In ((u, v), x) costs.
Proof.
  unfold edge_get. destruct (find _ costs) as [((a, b), y)|] eqn:E; [|discriminate]. intros EQ. injection EQ as ->.
  apply find_some in E. destruct E as (I & E). cbn in E. apply andb_true_iff in E. destruct E as (E1 & E2).
  apply Nat.eqb_eq in E1, E2. subst. exact I.
Qed.

Lemma costs_NoDup : NoDup (map fst costs).
Proof. unfold costs, get_edge_attributes. rewrite (flat_keys (fun e => pg_cost W (fst e) (snd e))). apply NoDup_filter. apply edges_NoDup. exact U. Qed.

Lemma edge_get_edge u v x : edge_get costs u v = Some x -> exists e, nth_error (ge G) e = Some (u, v) /\ nth_error c e = Some x.
Proof.
  intros H. apply edge_get_In in H. unfold costs, get_edge_attributes in H.
  apply (flat_In (fun e => pg_cost W (fst e) (snd e))) in H. destruct H as (I & E). cbn in E.
  rewrite <- HE in I. apply In_nth_error in I. destruct I as (e & I). exists e. split; [exact I|].
  destruct SG as (_ & _ & _ & _ & CC & _). rewrite (CC e u v I), E. reflexivity.
Qed.

Lemma edge_edge_get e u v x : nth_error (ge G) e = Some (u, v) -> nth_error c e = Some x -> (exists y, pg_cost W u v = Some y) ->
  edge_get costs u v = Some x.
Proof.
  intros I C (y & E). assert (x = y) as ->.
  { destruct SG as (_ & _ & _ & _ & CC & _). rewrite (CC e u v I), E in C. cbn in C. congruence. }
  apply edge_get_unique; [exact costs_NoDup|]. unfold costs, get_edge_attributes.
  apply (flat_In (fun e => pg_cost W (fst e) (snd e))). split; [|exact E]. rewrite <- HE. eapply nth_error_In; eauto.
Qed.

Definition pair_cost (acc : Z) (uv : nat * nat) : res Z :=
  let '(u, v) := uv in
  match edge_get costs u v with
  | Some x => Ok (acc + x)%Z
  | None => match edge_get costs v u with Some x => Ok (acc + x)%Z | None => Throw KeyErrorPy end
  end.

Lemma pair_cost_ok acc u v e x : attributes_given (pg_adj W) (pg_cost W) (pg_prize W) ->
  joins G e u v -> nth_error c e = Some x -> pair_cost acc (u, v) = Ok (acc + x)%Z.
Proof.
  intros (_ & AC) J C. unfold pair_cost.
  assert (GIV : forall e' a b, nth_error (ge G) e' = Some (a, b) -> exists y, pg_cost W a b = Some y).
  { intros e' a b I. apply AC. destruct SG as (_ & _ & AE & _). apply AE. exists e'. left. exact I. }
  destruct J as [J|J].
  - rewrite (edge_edge_get e u v x J C); [reflexivity|]. eapply GIV; eauto.
  - destruct (edge_get costs u v) as [y|] eqn:E.
    + apply edge_get_edge in E. destruct E as (f & I & D).
      assert (f = e). { destruct SG as (_ & NP & _). apply (NP f e u v); [left; exact I|right; exact J]. } subst f. congruence.
    + rewrite (edge_edge_get e v u x J C); [reflexivity|]. eapply GIV; eauto.
Qed.

Lemma py_total_cost_ok es xs : attributes_given (pg_adj W) (pg_cost W) (pg_prize W) ->
  Forall2 (fun uv x => exists e, joins G e (fst uv) (snd uv) /\ nth_error c e = Some x) es xs ->
  py_total_cost costs es = Ok (sum xs).
Proof.
  intros AG H. change (foldM pair_cost es 0%Z = Ok (sum xs)).
  enough (X : forall acc, foldM pair_cost es acc = Ok (acc + sum xs)%Z) by (rewrite X; f_equal; lia).
  induction H as [|(u, v) x es xs (e & J & C) H IH]; intros acc; cbn [foldM]; [cbn; f_equal; lia|].
  rewrite (pair_cost_ok acc u v e x AG J C). cbn [bind]. rewrite IH. cbn. f_equal. lia.
Qed.

Lemma py_total_cost_inv es z : py_total_cost costs es = Ok z -> list_cost G c es z.
Proof.
  intros H. change (foldM pair_cost es 0%Z = Ok z) in H.
  enough (X : forall acc z, foldM pair_cost es acc = Ok z -> exists xs,
    Forall2 (fun uv x => exists e, joins G e (fst uv) (snd uv) /\ nth_error c e = Some x) es xs /\ z = (acc + sum xs)%Z).
  { destruct (X _ _ H) as (xs & F & E). exists xs. split; [exact F|lia]. }
  clear H z. induction es as [|(u, v) es IH]; intros acc z H; cbn [foldM] in H.
  - injection H as <-. exists []. split; [constructor|cbn; lia].
  - assert (Y : exists x e, pair_cost acc (u, v) = Ok (acc + x)%Z /\ joins G e u v /\ nth_error c e = Some x).
    { unfold pair_cost in *. destruct (edge_get costs u v) as [x|] eqn:E.
      - apply edge_get_edge in E. destruct E as (e & I & C). exists x, e. split; [reflexivity|]. split; [left; exact I|exact C].
      - destruct (edge_get costs v u) as [x|] eqn:E'; [|discriminate].
        apply edge_get_edge in E'. destruct E' as (e & I & C). exists x, e. split; [reflexivity|]. split; [right; exact I|exact C]. }
    destruct Y as (x & e & E & J & C). rewrite E in H. cbn [bind] in H. destruct (IH _ _ H) as (xs & F & ->).
    exists (x :: xs). split; [constructor; [exists e; auto|exact F]|cbn; lia].
Qed.

Lemma prizes_total_sum vs z : prizes_total (get_node_attributes W) vs z -> prize_sum p vs z.
Proof.
  induction 1 as [|v l x z E H IH]; [constructor|]. constructor; [|exact IH]. apply node_attr in E. destruct E as (V & E).
  destruct SG as (_ & _ & _ & _ & _ & _ & PP). rewrite (PP v V), E. reflexivity.
Qed.

Lemma total_prize_inv vs z : py_total_prize (get_node_attributes W) vs = Ok z -> prize_sum p vs z.
Proof.
  intros H. apply prizes_total_sum. unfold py_total_prize in H.
  enough (X : forall acc z, foldM (fun acc v => do p <- dfetch (get_node_attributes W) v; Ok (acc + p)%Z) vs acc = Ok z ->
    exists y, prizes_total (get_node_attributes W) vs y /\ z = (acc + y)%Z).
  { destruct (X _ _ H) as (y & P & ->). exact P. }
  clear H z. induction vs as [|v vs IH]; intros acc z H; cbn [foldM] in H.
  - injection H as <-. exists 0%Z. split; [constructor|lia].
  - unfold dfetch in H at 1. destruct (dget (get_node_attributes W) v) as [x|] eqn:E; cbn [bind] in H; [|discriminate].
    destruct (IH _ _ H) as (y & P & ->). exists (x + y)%Z. split; [|lia]. constructor; [|exact P]. apply dget_In. exact E.
Qed.

Lemma total_prize_sum vs : attributes_given (pg_adj W) (pg_cost W) (pg_prize W) -> (forall v, In v vs -> vertex (pg_adj W) v) ->
  exists z, py_total_prize (get_node_attributes W) vs = Ok z /\ prize_sum p vs z.
Proof.
  intros (AP & _) V. destruct (py_total_prize_ok (get_node_attributes W) vs (node_attr_NoDup W U)) as (z & E & P).
  - intros u I. destruct (AP u (V u I)) as (x & X). exists x. apply node_attr. auto.
  - exists z. split; [exact E|]. apply prizes_total_sum. exact P.
Qed.

Lemma vertex_set_In es v : In v (vertex_set es) <-> In v (ends es).
Proof. unfold vertex_set, ends. apply nodup_In. Qed.

Lemma make_result_sound L es r : make_result L W es = Ok r ->
  list_cost G c (r_edges r) (r_objective r) /\ list_prize p (r_edges r) (r_prize r).
Proof.
  unfold make_result. set (es' := match order_edges L _ with Some e => e | None => _ end).
  destruct (py_total_cost (get_edge_attributes W) es') as [z|e|u|] eqn:EC; cbn [bind]; try discriminate.
  destruct (py_total_prize (get_node_attributes W) (vertex_set es')) as [y|e|u|] eqn:EP; cbn [bind]; try discriminate.
  intros EQ. injection EQ as <-. cbn. split; [apply py_total_cost_inv; exact EC|].
  exists (vertex_set es'). split; [apply NoDup_nodup|]. split; [intros v; apply vertex_set_In|]. apply total_prize_inv. exact EP.
Qed.

(** ** Tours *)

Lemma steps_trail t es : steps_of t es -> forall fs, trail G t fs -> Forall2 (fun e uv => joins G e (fst uv) (snd uv)) fs es.
Proof.
  induction 1 as [u|u v w es S IH]; intros fs T; inversion T; subst; constructor; auto.
Qed.

Lemma steps_ends t es : steps_of t es -> es <> [] -> forall v, In v (ends es) <-> In v t.
Proof.
  induction 1 as [u|u v w es S IH]; intros NE x; [congruence|]. cbn [ends flat_map app fst snd].
  destruct es as [|e es].
  - inversion S; subst. cbn. tauto.
  - specialize (IH ltac:(discriminate) x). cbn [In]. unfold ends in IH. rewrite IH. cbn [In]. tauto.
Qed.

Lemma joins_cost fs es : Forall2 (fun e uv => joins G e (fst uv) (snd uv)) fs es ->
  Forall2 (fun uv x => exists e, joins G e (fst uv) (snd uv) /\ nth_error c e = Some x) es (map (fun e => nth e c 0%Z) fs).
Proof.
  destruct SG as (_ & _ & _ & LC & _).
  induction 1 as [|e uv fs es J F IH]; cbn; constructor; [|exact IH]. exists e. split; [exact J|].
  apply nth_error_nth'. rewrite LC. destruct J as [J|J]; apply nth_error_Some; congruence.
Qed.

Lemma sum_map (f : nat -> Z) l : sum (map f l) = zsum f l.
Proof. induction l; cbn; congruence. Qed.

Lemma joins_unique fs gs es : Forall2 (fun e uv => joins G e (fst uv) (snd uv)) fs es ->
  Forall2 (fun e uv => joins G e (fst uv) (snd uv)) gs es -> fs = gs.
Proof.
  destruct SG as (_ & NP & _).
  intros F. revert gs. induction F as [|e uv fs es J F IH]; intros gs H; inversion H; subst; [reflexivity|].
  f_equal; [eapply NP; eauto|auto].
Qed.

Lemma walk_cost_of t fs : trail G t fs -> walk_cost G c t (zsum (fun e => nth e c 0%Z) fs).
Proof.
  destruct SG as (_ & NP & _ & LC & _). induction 1 as [u|u v w e es J T IH]; cbn [P_ILP.zsum]; [constructor|].
  apply wc_cons with e; [|apply nth_error_nth'; rewrite LC; eapply joins_lt; eauto|exact IH].
  split; [exact J|]. intros f Jf. rewrite (NP _ _ _ _ J Jf). lia.
Qed.

Lemma tour_vertices r t : tour_from G r t -> forall v, In v t <-> In v (removelast t).
Proof.
  intros (vs & -> & _) v. change (r :: vs ++ [r]) with ((r :: vs) ++ [r]). rewrite removelast_last, in_app_iff. cbn. tauto.
Qed.
Lemma tour_NoDup r t : tour_from G r t -> NoDup (removelast t).
Proof. intros (vs & -> & ND & _). change (r :: vs ++ [r]) with ((r :: vs) ++ [r]). rewrite removelast_last. exact ND. Qed.
Lemma tour_long r t fs : tour_from G r t -> trail G t fs -> fs <> [].
Proof. intros (vs & -> & _) T ->. destruct vs; inversion T. Qed.

(** Two tours with the same pairs of edges have the same vertices, cost and prize. *)
Lemma same_pairs es r t r' t' : heur_pairs G r es t -> heur_pairs G r' es t' ->
  (forall v, In v t <-> In v t') /\ (forall z, walk_cost G c t z -> walk_cost G c t' z) /\
  (forall z, tour_prize p t z -> tour_prize p t' z).
Proof.
  intros (T & fs & fs' & TR & PM & F) (T' & gs & gs' & TR' & PM' & F').
  assert (gs = fs) by (eapply joins_unique; eauto). subst gs.
  assert (PP : Permutation fs' gs') by (rewrite <- PM; exact PM').
  assert (V : forall v, In v t <-> In v t').
  { intros v. rewrite (trail_ends G t fs' v TR (tour_long _ _ _ T TR)), (trail_ends G t' gs' v TR' (tour_long _ _ _ T' TR')).
    split; intros (e & u & I & J); exists e, u; (split; [|exact J]); [|apply Permutation_sym in PP]; eapply Permutation_in; eauto. }
  split; [exact V|]. split.
  - intros z Z. destruct SG as (_ & NP & _). rewrite <- (trail_cost G c t fs' z NP TR Z), (P_ILP.zsum_perm _ _ _ PP).
    apply walk_cost_of. exact TR'.
  - intros z Z. unfold tour_prize in *. eapply prize_sum_perm; [|exact Z]. apply NoDup_Permutation; [eapply tour_NoDup; eauto..|].
    intros v. rewrite <- (tour_vertices r t T), <- (tour_vertices r' t' T'). apply V.
Qed.

Lemma no_loops_id es r t : loop_free G -> heur_pairs G r es t -> remove_self_loops es = es.
Proof.
  intros LF (_ & fs & fs' & _ & _ & F). unfold remove_self_loops. clear fs'. 
  induction F as [|e (u, v) fs es J F IH]; cbn; [reflexivity|]. cbn in J.
  destruct (Nat.eqb_spec u v) as [->|_]; [destruct (LF v); exists e; exact J|]. cbn. rewrite IH. reflexivity.
Qed.

Context (L : lab_lib) (quota : Z) (root : nat) (LF : loop_free G)
  (AG : attributes_given (pg_adj W) (pg_cost W) (pg_prize W)) (LO : lab_ok L W G p quota root).

(** The result for the edges of a tour. *)
Lemma make_result_tour es t : heur_pairs G root es t -> exists r, make_result L W es = Ok r /\
  tour_result G c p root (r_edges r) (r_objective r) (r_prize r) /\
  walk_cost G c t (r_objective r) /\ tour_prize p t (r_prize r).
Proof.
  intros H. destruct (lo_order _ _ _ _ _ _ LO es t H) as (es' & r' & t' & EO & ST & H').
  unfold make_result. rewrite (no_loops_id es root t LF H), EO.
  destruct (same_pairs es r' t' root t H' H) as (V & WC & TP).
  pose proof H' as (T' & fs & fs' & TR & PM & F).
  pose proof (joins_cost fs' es' (steps_trail t' es' ST fs' TR)) as JC.
  pose proof (py_total_cost_ok es' _ AG JC) as EC. unfold costs in EC. rewrite EC. cbn [bind]. rewrite sum_map.
  assert (NE : es' <> []).
  { intros ->. inversion ST; subst. destruct T' as ([|? ?] & E & _); discriminate E. }
  assert (VS : forall v, In v (vertex_set es') <-> In v t') by (intros v; rewrite vertex_set_In; apply steps_ends; assumption).
  assert (VV : forall v, In v (vertex_set es') -> vertex (pg_adj W) v).
  { intros v I. apply VS in I. pose proof (closed_in_vertex W G c p r' 2 t' SG ltac:(lia) T') as FV. rewrite Forall_forall in FV. auto. }
  destruct (total_prize_sum (vertex_set es') AG VV) as (z & EZ & PZ). rewrite EZ. cbn [bind].
  eexists. split; [reflexivity|]. cbn.
  assert (C' : walk_cost G c t' (P_ILP.zsum (fun e => nth e c 0%Z) fs')) by (apply walk_cost_of; exact TR).
  assert (P' : tour_prize p t' z).
  { unfold tour_prize. eapply prize_sum_perm; [|exact PZ]. apply NoDup_Permutation; [apply NoDup_nodup|eapply tour_NoDup; eauto|].
    intros v. rewrite VS. apply (tour_vertices r'). exact T'. }
  split; [|split; [apply WC; exact C'|apply TP; exact P']].
  exists t'. split; [split; [exists r'; exact T'|]|].
  - apply V. destruct H as ((vs & -> & _) & _). left. reflexivity.
  - split; [exact ST|]. split; [exact C'|exact P'].
Qed.

Lemma make_result_empty : make_result L W [] = Ok (mkResult 0 0 []).
Proof. unfold make_result. cbn. destruct (lo_empty _ _ _ _ _ _ LO) as [-> | ->]; reflexivity. Qed.

Lemma tour_pairs t : tour_from G root t -> heur_pairs G root (edge_list_from_walk t) t.
Proof.
  intros T. split; [exact T|]. destruct T as (vs & E & _ & _ & IW & _).
  destruct (trail_exists G t IW) as (fs & TR); [rewrite E; discriminate|]. exists fs, fs. split; [exact TR|]. split; [reflexivity|].
  apply (steps_trail t); [|exact TR]. assert (NE : t <> []) by (rewrite E; discriminate). clear - NE.
  induction t as [|u t IH]; [congruence|]. destruct t as [|v t]; [constructor|]. cbn. constructor. apply IH. discriminate.
Qed.

End LISTS.

(** ** Branch and cut *)

Lemma any_cost_bound G c C w z : costs_within G c 0 C -> any_cost G c w z -> (0 <= z <= (Z.of_nat (length w) - 1) * C)%Z.
Proof.
  intros (_ & F). rewrite Forall_forall in F. induction 1 as [u|u v w e x z J X H IH]; [cbn; lia|].
  assert (0 <= x <= C)%Z by (apply F; eapply nth_error_In; eauto). cbn [length] in *. rewrite !Nat2Z.inj_succ in *. lia.
Qed.

Section EXACT.
Context (W : pygraph) (G : graph) (c p : list Z) (n : nat) (C P : Z).
Context (HE : ge G = py_edges W) (U : undirected (pg_adj W)) (NIso : no_isolated (pg_adj W))
  (AG : attributes_given (pg_adj W) (pg_cost W) (pg_prize W))
  (HF : attributes_fit (pg_cost W) (pg_prize W))
  (SG : same_graph (pg_adj W) (pg_cost W) (pg_prize W) G c p)
  (Hn : vertex_count (ge G) n) (HC : costs_within G c 0 C) (HP : prizes_within G p 0 P)
  (C0 : (0 <= C)%Z) (NC : (2 * (Z.of_nat n * C) < int_max)%Z) (NP' : (Z.of_nat n * P <= int_max)%Z)
  (SIZE : (Z.of_nat (length (ge G) + n) <= 1000000000)%Z).
Context (vt vh : nat -> nat) (D : dgraph) (N : split_names) (root : nat) (dist : list (nat * Z)) (paths : list (nat * list nat))
  (depth : nat) (SC : split_call G c (map fst (pg_adj W)) vt vh D N root dist paths) (DEP : paths_within depth paths)
  (cm : list (nat * Z)) (pm : list (nat * (list nat * list nat)))
  (EM : disjoint_maps N depth D (vh root) dist paths = Ok (cm, pm)).

Lemma costs_nonneg : costs_from c 0.
Proof. intros e w E. destruct HC as (_ & F). rewrite Forall_forall in F. apply nth_error_In in E. apply F in E. clear - E. lia. Qed.

Lemma split_loop_free : loop_free G.
Proof. intros v (e & J). destruct SC as [[_ SE _ _ _ _ _] _ _ _ _]. destruct (SE e v v J) as (_ & NE). congruence. Qed.

Lemma ends_V v : In v (ends (ge G)) <-> In v (map fst (pg_adj W)).
Proof. apply (ends_vertex W G HE U NIso). Qed.

Lemma count_V : length (map fst (pg_adj W)) = n.
Proof.
  destruct Hn as (vs & ND & I & <-). apply NoDup_same_length; [apply U|exact ND|].
  intros x. rewrite I, ends_V. reflexivity.
Qed.

Lemma two_vertices : 2 <= n.
Proof.
  rewrite <- count_V. pose proof (sc_root _ _ _ _ _ _ _ _ _ _ SC) as RV. destruct (NIso root RV) as (u & A).
  assert (A' : adj (pg_adj W) u root) by (apply U; exact A). assert (UV : In u (map fst (pg_adj W))) by (eapply adj_vertex; eauto).
  assert (NE : u <> root).
  { intros ->. apply (split_loop_free root). destruct SG as (_ & _ & AE & _). apply AE. exact A. }
  destruct (map fst (pg_adj W)) as [|a [|b l]]; [destruct RV| |cbn; lia]. destruct RV as [<-|[]], UV as [<-|[]]. congruence.
Qed.

Lemma cm_facts : NoDup (map fst cm) /\ forall v z, In (v, z) cm -> In v (map fst (pg_adj W)) /\ (0 <= z)%Z /\ fits_int z.
Proof.
  destruct (split_maps depth G c _ vt vh D N root dist paths SC DEP costs_nonneg) as (cm' & pm' & E & N1 & _ & _ & H & _).
  rewrite EM in E. injection E as <- <-. split; [exact N1|]. intros v z I. destruct (H v z I) as (IV & a & b & _ & IA & IB & AI & _).
  split; [exact IV|]. destruct AI as (a' & b' & z1 & z2 & -> & -> & _ & NA & NB & DJ & A1 & A2 & ->).
  pose proof (any_cost_bound G c C _ _ HC A1) as B1. pose proof (any_cost_bound G c C _ _ HC A2) as B2.
  cbn [length] in B1, B2. rewrite !app_length in B1, B2. cbn [length] in B1, B2.
  assert (LN : length (a' ++ b') <= n).
  { rewrite <- count_V. apply NoDup_incl_length.
    - apply NoDup_app_iff. split; [exact NA|]. split; [exact NB|exact DJ].
    - intros x X. apply in_app_iff in X. destruct X as [X|X]; [apply IA|apply IB]; right; apply in_app_iff; left; exact X. }
  rewrite app_length in LN. pose proof two_vertices as TV.
  assert (Z1 : (z1 + z2 <= 2 * (Z.of_nat n * C))%Z).
  { transitivity ((Z.of_nat (length a') + Z.of_nat (length b') + 2) * C)%Z; [lia|].
    rewrite Z.mul_assoc. apply Z.mul_le_mono_nonneg_r; [exact C0|lia]. }
  split; [lia|]. unfold fits_int, int_min. lia.
Qed.

Definition cm_vector : list Z := map (fun v => attr (dget cm v)) (seq 0 (gn G)).

Lemma cm_given dd : (forall k x, In (k, x) dd <-> In (k, x) cm) -> prizes_given G dd cm_vector.
Proof.
  intros HD. destruct cm_facts as (ND & H). pose proof SG as (GO & _). unfold cm_vector.
  assert (NTH : forall v, In v (ends (ge G)) -> nth_error (map (fun v => attr (dget cm v)) (seq 0 (gn G))) v = Some (attr (dget cm v))).
  { intros v I. assert (v < gn G) as LV.
    { apply In_ends in I. destruct I as ((a, b) & I & [-> | ->]); apply GO in I; cbn; lia. }
    rewrite nth_error_map. replace (nth_error (seq 0 (gn G)) v) with (Some v); [reflexivity|]. symmetry.
    rewrite (nth_error_nth' _ 0) by (rewrite seq_length; exact LV). rewrite seq_nth by exact LV. reflexivity. }
  split; [rewrite map_length, seq_length; reflexivity|]. split.
  - intros v x I. apply HD in I. destruct (H v x I) as (IV & _). apply ends_V in IV. split; [exact IV|].
    rewrite (NTH v IV), (dget_some cm v x ND I). reflexivity.
  - intros v I NO. rewrite (NTH v I). destruct (dget cm v) as [x|] eqn:E; [|reflexivity].
    exfalso. apply (NO x). apply HD. apply dget_In. exact E.
Qed.

Lemma cm_bounds : (forall t z x, tour_from G root t -> any_cost G c t z -> entry cm root x -> (x <= z)%Z) -> tour_bounds G c root cm_vector.
Proof.
  intros HR t z v d T A I E. destruct cm_facts as (ND & H).
  assert (d = attr (dget cm v)) as ->.
  { unfold cm_vector in E. rewrite nth_error_map in E. destruct (nth_error (seq 0 (gn G)) v) as [u|] eqn:EU; [|discriminate].
    cbn in E. injection E as <-. assert (LU : v < gn G) by (rewrite <- (seq_length (gn G) 0); apply nth_error_Some; congruence).
    rewrite (nth_error_nth' _ 0) in EU by (rewrite seq_length; exact LU). rewrite seq_nth in EU by exact LU. injection EU as <-. reflexivity. }
  pose proof (any_cost_bound G c C t z HC A) as B.
  destruct (dget cm v) as [x|] eqn:EX; [|cbn; lia]. cbn. apply dget_In in EX.
  destruct (Nat.eq_dec v root) as [->|NE]; [eapply HR; eauto|].
  destruct (split_tour_bounds depth G c _ vt vh D N root dist paths cm pm [] SC DEP costs_nonneg EM) as (X & _). eapply X; eauto.
Qed.

Context (L : lab_lib) (tb : tiebreak) (so : list nat -> list nat) (mf : flow_lib) (quota : Z) (mp : model_params)
  (HT : good_pick tb) (HM : forall d s t, length (snd (mf d s t)) = length (n_arcs d))
  (FQ : (- int_max <= quota <= int_max)%Z) (LO : lab_ok L W G p quota root)
  (O1 : exists z, mp_branching_max_depth mp = Some z /\ fits_int z)
  (O2 : exists z, mp_branching_strategy mp = Some z /\ (0 <= z <= int_max)%Z)
  (O3 : exists z, mp_tailing_off mp = Some z /\ fits_int z) (O4 : exists z, mp_sepafreq mp = Some z /\ fits_int z)
  (O5 : mp_lp_gap mp <> None) (O6 : mp_time_limit mp <> None)
  (EX : is_exact mp = true) (NH : is_heuristic mp = false)
  (CD : mp_cc_disjoint mp = Some true -> forall t z x, tour_from G root t -> any_cost G c t z -> entry cm root x -> (x <= z)%Z)
  (CS : mp_cc_shortest mp = Some true -> forall v, vertex (pg_adj W) v -> exists w, is_walk G w /\ leads root v w)
  (he : list (nat * nat)) (ST : starting_edges L tb so W quota root mp cm pm = Ok he).

Lemma args_ok : exists a, solve_pctsp_args L W he quota root mp cm = Ok a /\
  sa_quota a = quota /\ (forall k x, In (k, x) (sa_dist a) <-> In (k, x) cm) /\
  call_with G (sa_cost a) (sa_prize a) c p n /\
  (sa_heur a = [] \/ exists t, heur_pairs G root (sa_heur a) t /\ meets_quota p quota t) /\
  (fl_disjoint_paths (sa_flags a) = true -> mp_cc_disjoint mp = Some true) /\
  (fl_shortest_path (sa_flags a) = true -> mp_cc_shortest mp = Some true).
Proof.
  destruct (call_n W G c p n HE U NIso HF SG Hn) as (cd & pd & ED & CW). destruct cm_facts as (ND & HCM).
  destruct (to_map_ok Nat.ltb nat_tri cm ND) as (dd & EDD & HDD); [intros k x I; apply (HCM k x I)|].
  destruct O1 as (z1 & E1 & F1), O2 as (z2 & E2 & F2), O3 as (z3 & E3 & F3), O4 as (z4 & E4 & F4).
  destruct (mp_lp_gap mp) as [z5|] eqn:E5; [|congruence]. destruct (mp_time_limit mp) as [z6|] eqn:E6; [|congruence].
  unfold solve_pctsp_args. rewrite ED. cbn [bind]. rewrite py_int_fits by (unfold fits_int, int_min; unfold int_max in *; lia). cbn [bind].
  rewrite E1, E2, E3, E4, E5, E6. cbn [py_arg_int py_arg_unsigned py_arg_float].
  rewrite (py_int_fits z1 F1). cbn [bind].
  replace (andb (Z.leb 0 z2) (Z.leb z2 (2 * int_max + 1))) with true
    by (symmetry; apply andb_true_iff; split; apply Z.leb_le; unfold int_max in *; lia).
  cbn [bind]. rewrite EDD. cbn [bind]. rewrite (py_int_fits z3 F3). cbn [bind]. rewrite (py_int_fits z4 F4). cbn [bind].
  eexists. split; [reflexivity|]. cbn [sa_quota sa_dist sa_cost sa_prize sa_heur sa_flags fl_disjoint_paths fl_shortest_path].
  split; [reflexivity|]. split; [exact HDD|]. split; [exact CW|]. split; [|split].
  - destruct he as [|e he'] eqn:EH; [left; reflexivity|]. destruct (yes_instance L W quota root (e :: he')) eqn:Y; [|left; reflexivity].
    right. apply (lo_yes _ _ _ _ _ _ LO). exact Y.
  - destruct cm; [discriminate|]. unfold py_bool. destruct (mp_cc_disjoint mp) as [[|]|]; congruence.
  - unfold py_bool. destruct (mp_cc_shortest mp) as [[|]|]; congruence.
Qed.

Let run := run_algorithm L tb so mf N depth D (vh root) dist paths W quota root mp.

Theorem exact_run : exists a bm m st q r, solve_pctsp_args L W he quota root mp cm = Ok a /\
  py_solve_start tb (sa_flags a) (py_edges W) (sa_heur a) (sa_cost a) (sa_prize a) (sa_quota a) root (sa_dist a) = Ok (bm, m, st, q, r) /\
  forall entries cbs sols, var_entries (i_graph m) entries ->
    scip_run m (accepted (sa_flags a) (i_graph m) q quota r entries) cbs sols ->
    exists st' out x, py_solve tb (sa_flags a) mf (py_edges W) (sa_heur a) (sa_cost a) (sa_prize a) (sa_quota a) root (sa_dist a) entries cbs sols = Ok (st', out) /\
      run entries cbs sols = Ok x /\
      ((sols = [] /\ empty_result (r_edges x) (r_objective x) (r_prize x)) \/
       tour_result G c p root (r_edges x) (r_objective x) (r_prize x) /\ (quota <= r_prize x)%Z) /\
      (scip_finished m (accepted (sa_flags a) (i_graph m) q quota r entries) (bc_rows st) (bc_rows st') sols ->
       tour_result G c p root (r_edges x) (r_objective x) (r_prize x) /\ (quota <= r_prize x)%Z /\
         (forall t z, feasible_tour G c p quota root t z -> (r_objective x <= z)%Z) \/
       empty_result (r_edges x) (r_objective x) (r_prize x) /\ forall t z, ~ feasible_tour G c p quota root t z).
Proof.
  destruct args_ok as (a & EA & EQ & HD & CW & HH & FD & FS).
  pose proof SG as (_ & NP & _).
  assert (RV : In root (ends (ge G))) by (apply ends_V; apply (sc_root _ _ _ _ _ _ _ _ _ _ SC)).
  destruct (py_solve_whole tb (sa_flags a) mf G (sa_cost a) (sa_prize a) (sa_dist a) c p cm_vector n C P quota root (sa_heur a))
    as (bm & m & st & q & r & ES & H); try assumption.
  - apply cm_given. exact HD.
  - exact split_loop_free.
  - destruct HH as [HH|(t & HH & _)]; [left; exact HH|right; exists t; exact HH].
  - intros F. apply cm_bounds. apply CD. apply FD. exact F.
  - intros F v I. apply (CS (FS F)). apply ends_V in I. exact I.
  - exists a, bm, m, st, q, r. split; [exact EA|]. rewrite EQ, <- HE. split; [exact ES|].
    intros entries cbs sols VE SR. destruct (H entries cbs sols VE SR) as (st' & out & E & R1 & R2).
    assert (RUN : run entries cbs sols = make_result L W out).
    { unfold run, run_algorithm. rewrite EM. cbn [bind]. rewrite NH, EX, ST. cbn [bind]. unfold solve_pctsp. rewrite EA. cbn [bind].
      rewrite EQ, <- HE, E. reflexivity. }
    assert (PAIRS : forall t, tour_from G root t -> edges_of_tour G t out -> heur_pairs G root out t).
    { intros t T (es & es' & TR & PM & F). split; [exact T|]. exists es, es'. split; [exact TR|]. split; [exact PM|].
      clear - F. induction F as [|e (u, v) es out X F IH]; constructor; [left; exact X|exact IH]. }
    assert (TOUR : forall t z, feasible_tour G c p quota root t z -> edges_of_tour G t out -> exists x, make_result L W out = Ok x /\
      tour_result G c p root (r_edges x) (r_objective x) (r_prize x) /\ (quota <= r_prize x)%Z /\ r_objective x = z).
    { intros t z (T & (y & TP & Q) & WC) ET.
      destruct (make_result_tour W G c p HE U SG L quota root split_loop_free AG LO out t (PAIRS t T ET)) as (x & EX' & TR & WC' & TP').
      exists x. split; [exact EX'|]. split; [exact TR|]. split.
      - assert (r_prize x = y) by (eapply prize_sum_fun; eauto). lia.
      - eapply walk_cost_fun; eauto. }
    assert (EMPTY : out = [] -> exists x, make_result L W out = Ok x /\ empty_result (r_edges x) (r_objective x) (r_prize x)).
    { intros ->. exists (mkResult 0 0 []). split; [apply (make_result_empty W G p L quota root LO)|]. repeat split. }
    assert (X : exists x, make_result L W out = Ok x /\
      ((sols = [] /\ out = [] /\ empty_result (r_edges x) (r_objective x) (r_prize x)) \/
       tour_result G c p root (r_edges x) (r_objective x) (r_prize x) /\ (quota <= r_prize x)%Z)).
    { destruct R1 as [(-> & EO)|(t & z & FT & ET)].
      - destruct (EMPTY EO) as (x & E1 & E2). exists x. auto.
      - destruct (TOUR t z FT ET) as (x & E1 & E2 & E3 & _). exists x. auto. }
    destruct X as (x & EX' & X). exists st', out, x. split; [exact E|]. split; [rewrite RUN; exact EX'|]. split.
    + destruct X as [(X1 & _ & X2)|X]; auto.
    + intros FIN. destruct R2 as [(t & z & (FT & MIN) & ET)|(EO & NO)]; [|exact FIN|left|right].
      * intros T HT'. destruct HH as [HH|(t & HH & MQ)].
        { rewrite HH in HT'. destruct HT' as (T1 & fs & fs' & TR & PM & F). inversion F; subst. apply Permutation_nil in PM. subst.
          exfalso. eapply tour_long; eauto. }
        { destruct MQ as (y & TP & Q). exists y. split; [|exact Q].
          destruct (same_pairs W G c p SG (sa_heur a) root t root T HH HT') as (_ & _ & X'). auto. }
      * destruct (TOUR t z FT ET) as (x' & E1 & E2 & E3 & E4). assert (x' = x) by congruence. subst x'.
        split; [exact E2|]. split; [exact E3|]. rewrite E4. exact MIN.
      * destruct (EMPTY EO) as (x' & E1 & E2). assert (x' = x) by congruence. subst x'. auto.
Qed.

End EXACT.

(** ** Heuristics *)

Lemma run_heuristic_start L tb so mf W N depth D s dist paths quota root mp cm pm es entries cbs sols :
  disjoint_maps N depth D s dist paths = Ok (cm, pm) -> is_heuristic mp = true ->
  run_heuristic_vial tb so W quota root (mp_heur mp) cm pm = Ok es ->
  run_algorithm L tb so mf N depth D s dist paths W quota root mp entries cbs sols = make_result L W es.
Proof. intros E H R. unfold run_algorithm. rewrite E. cbn [bind]. rewrite H, R. reflexivity. Qed.

Lemma heuristic_run L tb so mf W G c p n C P vt vh D N root depth dist paths cm pm quota mp t entries cbs sols :
  instance W G c p n C P -> maps_call W G c vt vh D N root depth dist paths cm pm -> lab_ok L W G p quota root ->
  is_heuristic mp = true ->
  run_heuristic_vial tb so W quota root (mp_heur mp) cm pm = Ok (edge_list_from_walk t) -> t = [] \/ tour_from G root t ->
  exists x, run_algorithm L tb so mf N depth D (vh root) dist paths W quota root mp entries cbs sols = Ok x /\
    ((t = [] /\ empty_result (r_edges x) (r_objective x) (r_prize x)) \/
     tour_from G root t /\ tour_result G c p root (r_edges x) (r_objective x) (r_prize x) /\
       walk_cost G c t (r_objective x) /\ tour_prize p t (r_prize x)).
Proof.
  intros [HE U NI AG HF SG Hn HC HP] (SC & DEP & EM) LO IH R T. rewrite (run_heuristic_start _ _ _ _ _ _ _ _ _ _ _ _ _ _ _ _ _ _ _ _ EM IH R).
  destruct T as [->|T].
  - exists (mkResult 0 0 []). split; [apply (make_result_empty W G p L quota root LO)|]. left. repeat split.
  - assert (LF : loop_free G) by (eapply split_loop_free; eauto).
    destruct (make_result_tour W G c p HE U SG L quota root LF AG LO _ t (tour_pairs G root t T)) as (x & E & H). exists x. auto.
Qed.

Lemma prizes_total_tour W G c p vs z : same_graph (pg_adj W) (pg_cost W) (pg_prize W) G c p ->
  prizes_total (get_node_attributes W) vs z -> prize_sum p vs z.
Proof. intros SG. apply (prizes_total_sum W G c p SG). Qed.

Lemma suurballes_run L tb so mf W G c p n C P vt vh D N root depth dist paths cm pm quota mp entries cbs sols :
  instance W G c p n C P -> maps_call W G c vt vh D N root depth dist paths cm pm -> lab_ok L W G p quota root ->
  is_heuristic mp = true -> mp_algorithm (mp_heur mp) = SuurballesHeuristic -> cm <> [] ->
  exists x, run_algorithm L tb so mf N depth D (vh root) dist paths W quota root mp entries cbs sols = Ok x /\
    ((empty_result (r_edges x) (r_objective x) (r_prize x) /\
      forall v t z, feasible_start (get_node_attributes W) quota cm pm v t z -> (py_maxsize <= z)%Z) \/
     tour_result G c p root (r_edges x) (r_objective x) (r_prize x) /\ (quota <= r_prize x)%Z /\
      forall v t z, feasible_start (get_node_attributes W) quota cm pm v t z -> (r_objective x <= z)%Z).
Proof.
  intros IN MC LO IH AL NE. pose proof IN as [HE U NI AG HF SG Hn HC HP]. pose proof MC as (SC & DEP & EM).
  assert (NN : costs_from c 0) by (eapply costs_nonneg; eauto). pose proof SG as (GO & NP & _).
  assert (HPZ : forall v, In v (map fst (pg_adj W)) -> exists x, entry (get_node_attributes W) v x).
  { intros v V. destruct AG as (AP & _). destruct (AP v V) as (x & X). exists x. apply node_attr. auto. }
  destruct (split_start_ok depth G c _ vt vh D N root dist paths cm pm (get_node_attributes W) SC DEP NN GO (node_attr_NoDup W U) HPZ EM) as (CM & FS).
  destruct (heuristic_ok (get_node_attributes W) cm pm quota CM) as (tour & ET & H).
  assert (R : run_heuristic_vial tb so W quota root (mp_heur mp) cm pm = Ok (edge_list_from_walk tour)).
  { unfold run_heuristic_vial, run_heuristic, run_heuristic_tour. rewrite AL. cbn [heuristic_start].
    assert (NE' : pm <> []).
    { destruct (split_maps depth G c _ vt vh D N root dist paths SC DEP NN) as (cm' & pm' & E & _ & _ & K & _).
      rewrite EM in E. injection E as <- <-. intros ->. destruct cm as [|(k, z) cm]; [congruence|]. apply (K k). left. reflexivity. }
    destruct cm as [|a cm]; [congruence|]. destruct pm as [|b pm]; [congruence|]. cbn [bind]. rewrite ET. reflexivity. }
  assert (T : tour = [] \/ tour_from G root tour).
  { destruct H as [(-> & _)|(v & cost & _ & F & _)]; [left; reflexivity|right]. apply (FS quota v tour cost F). }
  destruct (heuristic_run L tb so mf W G c p n C P vt vh D N root depth dist paths cm pm quota mp tour entries cbs sols IN MC LO IH R T) as (x & E & X).
  exists x. split; [exact E|]. destruct X as [(-> & X)|(TX & X & WC & TP)].
  - left. split; [exact X|]. destruct H as [(_ & H)|(v & cost & _ & F & _)]; [exact H|].
    destruct F as (z & (f & s & _ & (s0 & t0 & a & b & _ & _ & TB) & _) & _). discriminate TB.
  - right. split; [exact X|]. destruct H as [(-> & _)|(v & cost & _ & F & M)].
    { destruct TX as (vs & ET' & _). discriminate ET'. }
    destruct (FS quota v tour cost F) as (T' & A).
    assert (cost = r_objective x).
    { destruct T' as (vs & EV & _). destruct (any_cost_trail G c tour cost A) as (es & TR & ->).
      exact (trail_cost G c tour es _ NP TR WC). }
    subst cost. split; [|exact M]. destruct F as (z & (f & s & _ & _ & PT & _) & Q & _).
    apply (prizes_total_tour W G c p _ _ SG) in PT. assert (r_prize x = z) by (eapply prize_sum_fun; eauto). lia.
Qed.

Lemma bfs_start_run W G c p so root t0 : undirected (pg_adj W) -> same_graph (pg_adj W) (pg_cost W) (pg_prize W) G c p ->
  (forall l, Permutation (so l) l) -> tour_from G root t0 ->
  exists t, find_cycle_from_bfs so (pg_adj W) root = Ok t /\ closed_tour G root 2 t.
Proof.
  intros U SG SO T0. assert (V : vertex (pg_adj W) root).
  { pose proof (closed_in_vertex W G c p root 2 t0 SG ltac:(lia) T0) as FV. destruct T0 as (vs & -> & _). inversion FV; assumption. }
  destruct (find_cycle_ok so (pg_adj W) root SO U V) as (t & E & R). exists t. split; [exact E|].
  destruct R as [(_ & NO)|R]; [|eapply cycle_closed; eauto]. exfalso. apply (NO t0).
  destruct T0 as (vs & E0 & ND & LV & IW & _). exists vs. split; [exact E0|]. split; [exact ND|]. split; [exact LV|].
  destruct SG as (_ & _ & AE & _). clear - IW AE. induction IW; constructor; auto. apply AE. assumption.
Qed.

Lemma bfs_path_run L tb so mf W G c p n C P vt vh D N root depth dist paths cm pm quota mp t0 entries cbs sols :
  instance W G c p n C P -> maps_call W G c vt vh D N root depth dist paths cm pm -> lab_ok L W G p quota root ->
  small_numbers n C P -> good_pick tb -> (forall l, Permutation (so l) l) -> fits_int quota ->
  is_heuristic mp = true -> mp_algorithm (mp_heur mp) = BfsPathExtensionCollapse ->
  (forall z, mp_path_depth_limit (mp_heur mp) = Some z -> fits_int z) ->
  (forall z, mp_step_size (mp_heur mp) = Some z -> fits_int z /\ (z < int_max)%Z) ->
  tour_from G root t0 ->
  exists x, run_algorithm L tb so mf N depth D (vh root) dist paths W quota root mp entries cbs sols = Ok x /\
    (empty_result (r_edges x) (r_objective x) (r_prize x) \/
     tour_result G c p root (r_edges x) (r_objective x) (r_prize x) /\ (quota <= r_prize x)%Z).
Proof.
  intros IN MC LO SN HT SO FQ IH AL FD FS T0. pose proof IN as [HE U NI AG HF SG Hn HC HP].
  destruct (bfs_start_run W G c p so root t0 U SG SO T0) as (t & ES & T).
  assert (LV : length (pg_adj W) = n).
  { destruct Hn as (vs & ND & I & <-). rewrite <- (map_length fst). apply NoDup_same_length; [apply U|exact ND|].
    intros v. rewrite I. symmetry. apply (ends_vertex W G HE U NI). }
  assert (D1 : fits_int (or_default (mp_path_depth_limit (mp_heur mp)) (Z.of_nat (length (pg_adj W))))).
  { assert (fits_int (Z.of_nat (length (pg_adj W)))) by (rewrite LV; destruct SN as (_ & _ & LN & _); unfold fits_int, int_min; lia).
    destruct (mp_path_depth_limit (mp_heur mp)) as [z|]; cbn; [destruct (Z.eqb z 0)|]; auto. }
  assert (D2 : fits_int (or_default (mp_step_size (mp_heur mp)) 10) /\ (or_default (mp_step_size (mp_heur mp)) 10 < int_max)%Z).
  { assert (fits_int 10 /\ (10 < int_max)%Z) by (unfold fits_int, int_min, int_max; lia).
    destruct (mp_step_size (mp_heur mp)) as [z|]; cbn; [destruct (Z.eqb z 0)|]; auto. }
  destruct D2 as (D2 & D3).
  destruct (run_path_collapse W G c p n C P HE U NI HF SG Hn HC HP SN tb HT root 2 t quota false _ _ ltac:(lia) T FQ D1 D2 D3) as (t' & E & R & _).
  assert (RV : run_heuristic_vial tb so W quota root (mp_heur mp) cm pm = Ok (edge_list_from_walk t')).
  { unfold run_heuristic_vial, run_heuristic, run_heuristic_tour. rewrite AL. unfold heuristic_start. rewrite ES. cbn [bind]. rewrite E. reflexivity. }
  destruct (heuristic_run L tb so mf W G c p n C P vt vh D N root depth dist paths cm pm quota mp t' entries cbs sols IN MC LO IH RV) as (x & EX & X).
  { destruct R as [R|(R & _)]; [left; exact R|right; exact R]. }
  exists x. split; [exact EX|]. destruct X as [(_ & X)|(T' & X & _ & TP)]; [left; exact X|right]. split; [exact X|].
  destruct R as [->|(_ & z & PZ & Q)]; [destruct T' as (vs & ET' & _); discriminate ET'|].
  assert (r_prize x = z) by (eapply prize_sum_fun; eauto). lia.
Qed.

Lemma tour_prize_exists W G c p root t : same_graph (pg_adj W) (pg_cost W) (pg_prize W) G c p -> tour_from G root t -> exists z, tour_prize p t z.
Proof.
  intros SG (vs & -> & _ & _ & _ & F). destruct SG as (_ & _ & _ & _ & _ & LP & _).
  unfold tour_prize. change (root :: vs ++ [root]) with ((root :: vs) ++ [root]) in *. rewrite removelast_last.
  apply Forall_app in F. destruct F as (F & _). rewrite <- LP in F. clear - F. induction F as [|v l H F (z & IH)]; [exists 0%Z; constructor|].
  apply nth_error_Some in H. destruct (nth_error p v) as [x|] eqn:E; [|congruence]. exists (x + z)%Z. constructor; auto.
Qed.

Lemma bfs_extension_run L tb so mf W G c p n C P vt vh D N root depth dist paths cm pm quota mp t0 entries cbs sols :
  instance W G c p n C P -> maps_call W G c vt vh D N root depth dist paths cm pm -> lab_ok L W G p quota root ->
  small_numbers n C P -> good_pick tb -> (forall l, Permutation (so l) l) -> fits_int quota ->
  is_heuristic mp = true -> mp_algorithm (mp_heur mp) = BfsExtensionCollapse ->
  tour_from G root t0 ->
  exists x, run_algorithm L tb so mf N depth D (vh root) dist paths W quota root mp entries cbs sols = Ok x /\
    tour_result G c p root (r_edges x) (r_objective x) (r_prize x).
Proof.
  intros IN MC LO SN HT SO FQ IH AL T0. pose proof IN as [HE U NI AG HF SG Hn HC HP].
  destruct (bfs_start_run W G c p so root t0 U SG SO T0) as (t & ES & T).
  destruct (tour_prize_exists W G c p root t SG T) as (z & TP).
  destruct (run_until W G c p n C P HE U NI HF SG Hn HC HP SN root t quota T FQ) as (t1 & E0 & _).
  destruct (run_gain_collapse W G c p n C P HE U NI HF SG Hn HC HP SN tb HT root t z quota T TP FQ)
    as (t2 & z1 & t' & _ & _ & _ & _ & E2 & T2 & _).
  assert (RV : run_heuristic_vial tb so W quota root (mp_heur mp) cm pm = Ok (edge_list_from_walk t')).
  { unfold run_heuristic_vial, run_heuristic, run_heuristic_tour. rewrite AL. unfold heuristic_start. rewrite ES. cbn [bind]. rewrite E0. cbn [bind]. rewrite E2. reflexivity. }
  destruct (heuristic_run L tb so mf W G c p n C P vt vh D N root depth dist paths cm pm quota mp t' entries cbs sols IN MC LO IH RV) as (x & EX & X).
  { right. exact T2. }
  exists x. split; [exact EX|]. destruct X as [(-> & _)|(_ & X & _)]; [|exact X]. destruct T2 as (vs & ET' & _). discriminate ET'.
Qed.

Lemma missing_option L W he quota root mp cm cd pd dd : py_dicts W = Ok (cd, pd) -> to_map Nat.ltb cm = Ok dd ->
  mp_branching_max_depth mp = None \/ mp_branching_strategy mp = None \/ mp_tailing_off mp = None \/
  mp_sepafreq mp = None \/ mp_lp_gap mp = None \/ mp_time_limit mp = None ->
  solve_pctsp_args L W he quota root mp cm = Throw TypeErrorPy.
Proof.
  intros ED EM H. unfold solve_pctsp_args. rewrite ED. cbn [bind].
  assert (PI : forall z, py_int z = Ok z \/ py_int z = Throw TypeErrorPy) by (intros z; unfold py_int; destruct (andb _ _); auto).
  assert (PA : forall o, (exists z, py_arg_int o = Ok z /\ o <> None) \/ py_arg_int o = Throw TypeErrorPy).
  { intros [z|]; [|right; reflexivity]. cbn. destruct (PI z) as [-> | ->]; [left|right; reflexivity]. exists z. split; [reflexivity|discriminate]. }
  assert (PU : forall o, (exists z, py_arg_unsigned o = Ok z /\ o <> None) \/ py_arg_unsigned o = Throw TypeErrorPy).
  { intros [z|]; [|right; reflexivity]. cbn. destruct (andb _ _); [left|right; reflexivity]. exists z. split; [reflexivity|discriminate]. }
  assert (PF : forall o, (exists z, py_arg_float o = Ok z /\ o <> None) \/ py_arg_float o = Throw TypeErrorPy).
  { intros [z|]; [|right; reflexivity]. left. exists z. split; [reflexivity|discriminate]. }
  destruct (PI quota) as [-> | ->]; cbn [bind]; [|reflexivity].
  destruct (PA (mp_branching_max_depth mp)) as [(z1 & -> & N1)| -> ]; cbn [bind]; [|reflexivity].
  destruct (PU (mp_branching_strategy mp)) as [(z2 & -> & N2)| -> ]; cbn [bind]; [|reflexivity].
  rewrite EM. cbn [bind].
  destruct (PF (mp_lp_gap mp)) as [(z3 & -> & N3)| -> ]; cbn [bind]; [|reflexivity].
  destruct (PA (mp_tailing_off mp)) as [(z4 & -> & N4)| -> ]; cbn [bind]; [|reflexivity].
  destruct (PA (mp_sepafreq mp)) as [(z5 & -> & N5)| -> ]; cbn [bind]; [|reflexivity].
  destruct (PF (mp_time_limit mp)) as [(z6 & -> & N6)| -> ]; cbn [bind]; [|reflexivity].
  destruct H as [H|[H|[H|[H|[H|H]]]]]; congruence.
Qed.
