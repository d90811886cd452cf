(** * P_Experiment: proofs for Spec_Experiment *)
From Coq Require Import Lia Permutation.
From Verif Require Import Base Graph Spec Spec_Python Spec_PyWrap Spec_Dataset Spec_RunAlg Spec_ILP Spec_Solve Spec_Rename Spec_Cover Spec_Compare M_Dijkstra
  M_Solution M_ILP M_MaxFlow M_Solve M_Python M_PyWrap M_Suurballe M_DisjointMap M_RunAlg M_Compare M_Load M_Experiment Spec_Experiment
  P_Base P_Python P_PyHeur P_PyWrap P_CompareRun.
Open Scope nat_scope.

(** ** Tours of the graph of networkx and of the graph of edges *)

Section Same.
Context (W : pygraph) (G : graph) (c p : list Z).
Hypothesis (U : undirected (pg_adj W)) (SG : same_graph (pg_adj W) (pg_cost W) (pg_prize W) G c p).
Hypothesis (SY : forall u v, adj (pg_adj W) u v -> pg_cost W u v = pg_cost W v u).
Let cost u v := attr (pg_cost W u v).

Lemma step_same u v : adj (pg_adj W) u v -> exists e, step_edge G u v e /\ nth_error c e = Some (cost u v).
Proof.
  intros A. destruct SG as (_ & NP & ED & _ & CO & _). destruct (proj2 (ED u v) A) as (e & J). exists e. split.
  - split; [exact J|]. intros f Jf. rewrite (NP e f u v J Jf). auto.
  - destruct J as [J|J]; [exact (CO _ _ _ J)|]. rewrite (CO _ _ _ J). unfold cost. rewrite (SY u v A). reflexivity.
Qed.

Lemma walk_same w : chain (adj (pg_adj W)) w -> walk_cost G c w (steps_cost cost w).
Proof.
  induction 1 as [|u|u v w A H IH]; [constructor..|].
  destruct (step_same u v A) as (e & S & E). cbn [steps_cost]. econstructor; eauto.
Qed.

Lemma walk_chain w : is_walk G w -> chain (adj (pg_adj W)) w.
Proof. induction 1; constructor; auto. apply SG. assumption. Qed.
Lemma chain_walk w : chain (adj (pg_adj W)) w -> is_walk G w.
Proof. induction 1; constructor; auto. apply SG. assumption. Qed.

Lemma tour_cycle r t : tour_from G r t <-> cycle_at (adj (pg_adj W)) r t.
Proof.
  split.
  - intros (vs & E & N & L & H & _). exists vs. auto using walk_chain.
  - intros C. pose proof (cycle_two_neighbours _ _ _ U C) as T. destruct C as (vs & E & N & L & H). exists vs. do 3 (split; [assumption|]).
    split; [apply chain_walk, H|]. apply Forall_forall. intros v I. destruct (T v I) as (a & _ & _ & _ & _ & _ & _ & A & _).
    destruct SG as (GO & _ & ED & _). apply ED in A as (e & [A|A]); apply nth_error_In in A; apply GO in A; tauto.
Qed.

Lemma prize_same l : (forall v, In v l -> vertex (pg_adj W) v) -> prize_sum p l (zsum (map (fun v => attr (pg_prize W v)) l)).
Proof.
  induction l as [|v l IH]; intros V; cbn; constructor; auto.
  - apply SG. apply V. cbn; auto.
  - apply IH. intros. apply V. cbn; auto.
Qed.

Lemma removelast_incl {A} (l : list A) x : In x (removelast l) -> In x l.
Proof. induction l as [|y l IH]; [auto|]. destruct l; cbn in *; [tauto|]. intros [->|H]; auto. Qed.

Lemma tour_graph r t z y : tour_from G r t -> walk_cost G c t z -> tour_prize p t y -> graph_tour W r t z y.
Proof.
  intros T WC TP. apply tour_cycle in T. split; [exact T|]. split.
  - eapply walk_cost_fun; [exact WC|]. apply walk_same. destruct T as (vs & _ & _ & _ & H). exact H.
  - eapply prize_sum_fun; [exact TP|]. apply prize_same. intros v I. eapply cycle_vertices; eauto using removelast_incl.
Qed.

Lemma graph_feasible r t z y quota : graph_tour W r t z y -> (quota <= y)%Z -> feasible_tour G c p quota r t z.
Proof.
  intros (T & -> & ->) Q. split; [apply tour_cycle, T|]. split.
  - eexists. split; [apply prize_same|exact Q]. intros v I. eapply cycle_vertices; eauto using removelast_incl.
  - apply walk_same. destruct T as (vs & _ & _ & _ & H). exact H.
Qed.

Lemma result_same root x : tour_result G c p root (r_edges x) (r_objective x) (r_prize x) -> graph_result W root x.
Proof.
  intros (t & ((s & T) & I) & S & WC & TP). exists s, t. split; [apply tour_graph; assumption|]. auto.
Qed.
End Same.

(** ** Preprocessing *)

Definition after (W : pygraph) (h : nxgraph) : pygraph := mkPy h (pg_cost W) (pg_prize W).

Lemma after_priced W h C P : induced_subgraph h (pg_adj W) -> priced_graph W C P -> priced_graph (after W h) C P.
Proof.
  intros (U & V & A) [U0 (AG1 & AG2) FI SY CO PR]. split; cbn; auto.
  - split; intros; [apply AG1, V; assumption|apply AG2, A; assumption].
  - intros u v H. apply SY, A, H.
  - intros u v H. apply CO, A, H.
Qed.

Lemma tour_after W h r t z y : induced_subgraph h (pg_adj W) -> graph_tour (after W h) r t z y -> graph_tour W r t z y.
Proof. intros I (T & E & E'). split; [|auto]. exact (cycle_from_induced _ _ _ _ I T). Qed.
Lemma result_after W h root x : induced_subgraph h (pg_adj W) -> graph_result (after W h) root x -> graph_result W root x.
Proof. intros I (s & t & T & R). exists s, t. split; [eapply tour_after; eauto|exact R]. Qed.

Lemma chain_cut R a b : chain R (a ++ b) -> chain R a.
Proof.
  revert b. induction a as [|x a IH]; intros b H; [constructor|]. destruct a as [|y a]; [constructor|].
  cbn in H. inversion H; subst. constructor; [assumption|]. exact (IH b H4).
Qed.

(** The edges of an induced subgraph are not more. *)
Definition norm (e : nat * nat) : nat * nat := if Nat.leb (fst e) (snd e) then e else (snd e, fst e).
Lemma norm_cases e : norm e = e \/ norm e = (snd e, fst e).
Proof. unfold norm. destruct (Nat.leb _ _); auto. Qed.
Lemma norm_swap u v : norm (u, v) = norm (v, u).
Proof. unfold norm. cbn. destruct (Nat.leb_spec u v), (Nat.leb_spec v u); try reflexivity; try lia. assert (u = v) by lia. subst. reflexivity. Qed.

Lemma edges_norm W : undirected (pg_adj W) -> NoDup (map norm (py_edges W)) /\
  forall u v, In (norm (u, v)) (map norm (py_edges W)) <-> adj (pg_adj W) u v.
Proof.
  intros U. pose proof (view_ok W (S (list_max (map fst (pg_adj W)))) U) as SG.
  assert (B : forall v, vertex (pg_adj W) v -> v < S (list_max (map fst (pg_adj W)))).
  { intros v V. pose proof (proj1 (list_max_le (map fst (pg_adj W)) _) (Nat.le_refl _)) as F. rewrite Forall_forall in F. specialize (F v V). lia. }
  specialize (SG B). destruct SG as (_ & NP & ED & _). cbn in *.
  assert (NJ : forall e f a b, nth_error (py_edges W) e = Some a -> nth_error (py_edges W) f = Some b -> norm a = norm b -> e = f).
  { intros e f (a1, a2) (b1, b2) E F N. apply (NP e f a1 a2); [left; exact E|].
    assert (X : (a1, a2) = (b1, b2) \/ (a1, a2) = (b2, b1)).
    { unfold norm in N. cbn in N. destruct (Nat.leb a1 a2), (Nat.leb b1 b2); injection N as -> ->; auto. }
    destruct X as [X|X]; injection X as -> ->; [left|right]; exact F. }
  split.
  - apply NoDup_nth_error. intros i j L E. rewrite map_length in L. rewrite !nth_error_map in E.
    destruct (nth_error (py_edges W) i) as [a|] eqn:Ei; [|apply nth_error_None in Ei; lia].
    destruct (nth_error (py_edges W) j) as [b|] eqn:Ej; [|discriminate]. cbn in E. injection E as E. eauto.
  - intros u v. rewrite <- ED. split.
    + intros I. apply in_map_iff in I as ((a & b) & E & I). apply In_nth_error in I as (e & I). exists e.
      assert (X : (a, b) = (u, v) \/ (a, b) = (v, u)).
      { unfold norm in E. cbn in E. destruct (Nat.leb a b), (Nat.leb u v); injection E as -> ->; auto. }
      destruct X as [X|X]; injection X as -> ->; [left|right]; exact I.
    + intros (e & [J|J]); apply nth_error_In in J; apply in_map with (f := norm) in J; [exact J|]. rewrite norm_swap. exact J.
Qed.

Lemma edges_le W h : undirected (pg_adj W) -> induced_subgraph h (pg_adj W) -> length (py_edges (after W h)) <= length (py_edges W).
Proof.
  intros U I. destruct (edges_norm W U) as (_ & E). destruct (edges_norm (after W h) (proj1 I)) as (N & E').
  rewrite <- (map_length norm), <- (map_length norm (py_edges W)). apply NoDup_incl_length; [exact N|].
  intros e J. apply in_map_iff in J as ((u & v) & <- & J). apply E.
  assert (A : adj (pg_adj (after W h)) u v) by (apply E'; apply in_map; exact J). apply I, A.
Qed.

(** What preprocessing makes of a graph with a tour through the root. *)
Lemma prepared component bicomps depth0 v W C P t0 : let root := dc_root (fv_data v) in
  priced_graph W C P -> fv_pre v = mkPre false false true false false -> blocks_of (pg_adj W) (bicomps (pg_adj W)) ->
  cycle_at (adj (pg_adj W)) root t0 ->
  exists h, run_preprocessing component bicomps depth0 (fv_pre v) (pg_adj W) root = Ok h /\ induced_subgraph h (pg_adj W) /\
    (forall t, cycle_at (adj (pg_adj W)) root t <-> cycle_at (adj h) root t) /\
    length h <= length (pg_adj W) /\ length (py_edges (after W h)) <= length (py_edges W) /\ priced_graph (after W h) C P /\
    (forall G c p, ge G = py_edges (after W h) -> same_graph h (pg_cost W) (pg_prize W) G c p -> prizes_within G p 0 P ->
       instance (after W h) G c p (length h) C P /\
       forall v, vertex h v -> exists w, is_walk G w /\ leads root v w).
Proof.
  intros root PW EP BL C0. pose proof PW as [U AG FI SY CO PR].
  destruct (one_connected_ok bicomps (pg_adj W) root U BL) as (I & VV & CC).
  set (h := remove_one_connected_components bicomps (pg_adj W) root) in *.
  exists h. split; [rewrite EP; reflexivity|]. split; [exact I|]. split; [exact CC|].
  assert (NV : NoDup (map fst h)) by apply I.
  assert (LH : length h <= length (pg_adj W)).
  { rewrite <- (map_length fst), <- (map_length fst (pg_adj W)). apply NoDup_incl_length; [exact NV|]. intros x J. apply I, J. }
  split; [exact LH|]. split; [exact (edges_le W h U I)|]. pose proof (after_priced W h C P I PW) as PA. split; [exact PA|].
  intros G c p HE SG PW'.
  assert (CY : forall v, vertex h v -> exists t, cycle_at (adj h) root t /\ In v t).
  { intros x V. apply VV in V as (_ & [->|(t & T & J)]).
    - exists t0. split; [apply CC, C0|]. destruct C0 as (vs & -> & _). cbn; auto.
    - exists t. split; [apply CC, T|exact J]. }
  assert (NI : no_isolated h).
  { intros x V. destruct (CY x V) as (t & T & J). destruct (cycle_two_neighbours h root t (proj1 I) T x J) as (a & _ & _ & _ & _ & _ & _ & A & _). eauto. }
  split.
  - destruct PA as [UA AA FA SA CA RA]. split; auto.
    + exists (map fst h). split; [exact NV|]. split; [|apply map_length]. intros x. unfold ends. split.
      * intros V. destruct (NI x V) as (y & A). apply SG in A as (e & [A|A]); apply nth_error_In in A; apply in_flat_map; eexists; (split; [exact A|cbn; auto]).
      * intros J. apply in_flat_map in J as ((a & b) & J & K). apply In_nth_error in J as (e & J).
        assert (A : adj h a b) by (apply SG; exists e; left; exact J). assert (A' : adj h b a) by (destruct I as ((_ & _ & S) & _); apply S; exact A).
        cbn in K. destruct K as [<-|[<-|[]]]; eapply P_PyWrap.adj_vertex; eauto.
    + destruct SG as (_ & _ & ED & LC & CE & _). split; [exact LC|]. apply Forall_forall. intros x J. apply In_nth_error in J as (e & J).
      destruct (nth_error (ge G) e) as [(a & b)|] eqn:E; [|apply nth_error_None in E; assert (e < length c) by (apply nth_error_Some; congruence); lia].
      rewrite (CE _ _ _ E) in J. injection J as <-. apply CO, I. apply ED. exists e. left. exact E.
  - intros x V. destruct (CY x V) as (t & T & J). destruct T as (vs & -> & _ & _ & H).
    assert (J' : In x (root :: vs)) by (cbn in *; rewrite in_app_iff in J; cbn in J; intuition).
    apply in_split in J' as (a & b & E).
    assert (EQ : root :: vs ++ [root] = (a ++ [x]) ++ b ++ [root]).
    { change (root :: vs ++ [root]) with ((root :: vs) ++ [root]). rewrite E. rewrite <- !app_assoc. reflexivity. }
    rewrite EQ in H. apply chain_cut in H. exists (a ++ [x]). split; [eapply (chain_walk (after W h)); eauto|]. split.
    + destruct a; cbn in *; congruence.
    + apply last_last.
Qed.

(** ** A run *)

Lemma solved_answered component bicomps depth0 L tb so mf N depth D s dist paths cm v W h C P G c p he :
  let quota := dc_quota (fv_data v) in let root := dc_root (fv_data v) in let mp := fp_model (fv_params v) in
  run_preprocessing component bicomps depth0 (fv_pre v) (pg_adj W) root = Ok h -> induced_subgraph h (pg_adj W) ->
  (forall t, cycle_at (adj (pg_adj W)) root t <-> cycle_at (adj h) root t) -> priced_graph (after W h) C P ->
  same_graph h (pg_cost W) (pg_prize W) G c p ->
  solved L tb so mf N depth D s dist paths cm (after W h) G c p quota root mp he ->
  answered component bicomps depth0 L tb so mf N depth D s dist paths cm v W (after W h) he.
Proof.
  intros quota root mp EP I CC PA SG (a & bm & m & st & q & r & E1 & E2 & H). pose proof PA as [U _ _ SY _ _].
  exists a, bm, m, st, q, r. split; [exact E1|]. split; [exact E2|]. intros entries cbs sols VE SR.
  destruct (H entries cbs sols VE SR) as (st' & out & x & E3 & E4 & A & B). exists st', out, x. cbv zeta. split; [exact E3|].
  assert (E5 : run_vial L tb so mf (mkSur N depth D s dist paths entries cbs sols) v (after W h) = Ok x) by exact E4.
  split; [exact E5|]. split.
  { unfold run_loaded. fold root. rewrite EP. cbn [bind]. unfold vial_algorithm. change (mkPy h (pg_cost W) (pg_prize W)) with (after W h). rewrite E5. reflexivity. }
  assert (RS : tour_result G c p root (r_edges x) (r_objective x) (r_prize x) -> graph_result W root x).
  { intros T. apply (result_after W h root x I). exact (result_same (after W h) G c p U SG SY root x T). }
  split.
  - destruct A as [A|(A & Q)]; [left; exact A|right]. auto.
  - intros F. destruct (B F) as [(T & Q & O)|(T & O)]; [left|right].
    + split; [auto|]. split; [exact Q|]. intros t z y (GT & Ez & Ey) Qy. apply (O t z).
      eapply (graph_feasible (after W h)); eauto. split; [apply CC, GT|]. auto.
    + split; [exact T|]. intros t z y (GT & Ez & Ey). destruct (Z_lt_le_dec y quota) as [LT|LE]; [exact LT|]. exfalso. apply (O t z).
      eapply (graph_feasible (after W h)); eauto. split; [apply CC, GT|]. auto.
Qed.

(** ** The experiments *)

Lemma any_same W G c p t z : same_graph (pg_adj W) (pg_cost W) (pg_prize W) G c p ->
  (forall u v, adj (pg_adj W) u v -> pg_cost W u v = pg_cost W v u) -> any_cost G c t z ->
  z = steps_cost (fun u v => attr (pg_cost W u v)) t.
Proof.
  intros SG SY. induction 1 as [u|u v w e x z J E H IH]; [reflexivity|]. rewrite IH.
  enough (x = attr (pg_cost W u v)) as -> by reflexivity. clear IH H.
  assert (A : adj (pg_adj W) u v) by (apply SG; exists e; exact J). destruct SG as (_ & _ & _ & _ & CO & _).
  destruct J as [J|J]; rewrite (CO _ _ _ J) in E; injection E as <-; [reflexivity|]. rewrite (SY u v A). reflexivity.
Qed.

Lemma sizes_after W h C P : sizes W C P -> length h <= length (pg_adj W) -> length (py_edges (after W h)) <= length (py_edges W) -> sizes (after W h) C P.
Proof.
  unfold sizes, small_numbers. cbn [pg_adj after]. intros ((C0 & P0 & A & B & D & E) & F & H & K) L M.
  set (n := length (pg_adj W)) in *. set (k := length h) in *.
  assert (Hk : (0 <= Z.of_nat k <= Z.of_nat n)%Z) by lia.
  assert (X1 : (Z.of_nat k * C <= Z.of_nat n * C)%Z) by nia. assert (X2 : (Z.of_nat k * P <= Z.of_nat n * P)%Z) by nia.
  assert (X3 : (Z.of_nat (S k) * C <= Z.of_nat (S n) * C)%Z) by nia. assert (X4 : (Z.of_nat (S k) * P <= Z.of_nat (S n) * P)%Z) by nia.
  repeat split; try assumption; lia.
Qed.

(** ** One vial *)

Section Vial.
Context (component : nxgraph -> nat -> list nat) (bicomps : nxgraph -> list (list nat)) (depth0 : nat) (v : full_vial) (W0 : pygraph) (C P : Z).
Let quota := dc_quota (fv_data v). Let root := dc_root (fv_data v). Let mp := fp_model (fv_params v).
Hypothesis (PW : priced_graph W0 C P) (SZ : sizes W0 C P) (EP : fv_pre v = mkPre false false true false false).
Hypothesis (BL : blocks_of (pg_adj W0) (bicomps (pg_adj W0))) (T0 : exists t, cycle_at (adj (pg_adj W0)) root t).

Lemma vial_prepared : exists W, preprocessed component bicomps depth0 v W0 W /\
  forall L tb so mf G c p vt vh D N depth dist paths cm pm, run_on L tb so mf v W P G c p vt vh D N depth dist paths cm pm ->
    let n := length (pg_adj W) in
    instance W G c p n C P /\ small_numbers n C P /\ (2 * (Z.of_nat n * C) < int_max)%Z /\ (Z.of_nat n * P <= int_max)%Z /\
    (Z.of_nat (length (ge G) + n) <= 1000000000)%Z /\ (exists t, tour_from G root t) /\
    (forall u, vertex (pg_adj W) u -> exists w, is_walk G w /\ leads root u w) /\
    (forall t z, tour_from G root t -> any_cost G c t z -> exists y, graph_tour W0 root t z y) /\
    (forall x, tour_result G c p root (r_edges x) (r_objective x) (r_prize x) -> graph_result W0 root x) /\
    (forall S x, run_vial L tb so mf S v W = Ok x ->
       run_loaded component bicomps depth0 (vial_algorithm L tb so mf (fun _ => S)) v W0 = Ok (r_prize x)) /\
    (forall he, solved L tb so mf N depth D (vh root) dist paths cm W G c p quota root mp he ->
       answered component bicomps depth0 L tb so mf N depth D (vh root) dist paths cm v W0 W he).
Proof.
  destruct T0 as (t0 & C0). destruct (prepared component bicomps depth0 v W0 C P t0 PW EP BL C0) as (h & ER & I & CC & LH & LE & PA & IN).
  pose proof PW as [U _ _ _ _ _]. pose proof PA as [UA _ _ SA _ _].
  exists (after W0 h). split.
  { split; [exact ER|]. split; [reflexivity|]. split; [reflexivity|]. split; [exact I|].
    destruct (one_connected_ok bicomps (pg_adj W0) root U BL) as (_ & VV & _).
    assert (Eh : h = remove_one_connected_components bicomps (pg_adj W0) root).
    { rewrite EP in ER. cbn in ER. injection ER as <-. reflexivity. }
    rewrite <- Eh in VV. intros u. cbn [after pg_adj]. rewrite VV. split.
    - intros (_ & [->|H]); [|exact H]. exists t0. split; [exact C0|]. destruct C0 as (vs & -> & _). cbn; auto.
    - intros (t & T & J). split; [exact (cycle_vertices _ _ _ U T u J)|]. eauto. }
  intros L tb so mf G c p vt vh D N depth dist paths cm pm (HE & SG & PP & MC & LO & HT & SO & HM & FQ). cbv zeta.
  destruct (IN G c p HE SG PP) as (INS & CON). destruct (sizes_after W0 h C P SZ LH LE) as (S1 & S2 & S3 & S4).
  assert (RS : forall x, tour_result G c p root (r_edges x) (r_objective x) (r_prize x) -> graph_result W0 root x).
  { intros x T. apply (result_after W0 h root x I). exact (result_same (after W0 h) G c p UA SG SA root x T). }
  split; [exact INS|]. split; [exact S1|]. split; [exact S2|]. split; [exact S3|]. split; [rewrite HE; exact S4|].
  split; [exists t0; apply (tour_cycle (after W0 h) G c p UA SG); apply CC, C0|]. split; [exact CON|]. split; [|split; [exact RS|split]].
  - intros t z T A. eexists. split; [|split; [|reflexivity]].
    + apply CC. apply (tour_cycle (after W0 h) G c p UA SG). exact T.
    + exact (any_same (after W0 h) G c p t z SG SA A).
  - intros S x E. unfold run_loaded. rewrite ER. cbn [bind]. unfold vial_algorithm.
    change (mkPy h (pg_cost W0) (pg_prize W0)) with (after W0 h). rewrite E. reflexivity.
  - intros he H. eapply solved_answered; eauto.
Qed.
End Vial.

(** ** Comparing results *)

Lemma steps_join f a x b : steps_cost f (a ++ x :: b) = (steps_cost f (a ++ [x]) + steps_cost f (x :: b))%Z.
Proof.
  induction a as [|y a IH]; [cbn; lia|]. destruct a as [|z a].
  - cbn [app]. change (steps_cost f (y :: x :: b)) with (f y x + steps_cost f (x :: b))%Z. cbn. lia.
  - cbn [app] in *. change (steps_cost f (y :: z :: a ++ x :: b)) with (f y z + steps_cost f (z :: a ++ x :: b))%Z.
    change (steps_cost f (y :: z :: a ++ [x])) with (f y z + steps_cost f (z :: a ++ [x]))%Z. lia.
Qed.

Lemma zsum_perm l l' : Permutation l l' -> zsum l = zsum l'.
Proof. induction 1; cbn; lia. Qed.

(** A tour can be written from each of its vertices. *)
Lemma graph_rotate W s t z y r : graph_tour W s t z y -> In r t -> exists t', graph_tour W r t' z y.
Proof.
  intros (T & -> & ->) I. destruct T as (vs & E & N & L & H).
  destruct (Nat.eq_dec r s) as [->|NE]. { exists t. split; [exists vs; auto|auto]. }
  assert (J : In r vs). { subst t. destruct I as [I|I]; [congruence|]. apply in_app_iff in I as [I|[I|[]]]; [exact I|congruence]. }
  apply in_split in J as (a & b & ->). subst t.
  exists (r :: (b ++ s :: a) ++ [r]).
  assert (E1 : s :: (a ++ r :: b) ++ [s] = (s :: a) ++ r :: (b ++ [s])) by (cbn; rewrite <- app_assoc; reflexivity).
  assert (E2 : r :: (b ++ s :: a) ++ [r] = (r :: b) ++ s :: (a ++ [r])) by (cbn; rewrite <- app_assoc; reflexivity).
  rewrite E1 in H. apply chain_split in H as H'. destruct H' as (_ & H2).
  assert (H1 : chain (adj (pg_adj W)) ((s :: a) ++ [r])).
  { replace ((s :: a) ++ r :: b ++ [s]) with (((s :: a) ++ [r]) ++ b ++ [s]) in H by (rewrite <- app_assoc; reflexivity). exact (chain_cut _ _ _ H). }
  assert (PM : Permutation (r :: b ++ s :: a) (s :: a ++ r :: b)).
  { change (Permutation ((r :: b) ++ (s :: a)) ((s :: a) ++ (r :: b))). apply Permutation_app_comm. }
  split; [|split].
  - exists (b ++ s :: a). split; [reflexivity|]. split.
    + eapply Permutation_NoDup; [apply Permutation_sym, PM|exact N].
    + split.
      * rewrite app_length in *. cbn in *. lia.
      * rewrite E2. clear - H1 H2. change (s :: a ++ [r]) with ((s :: a) ++ [r]).
        revert H2. change (r :: b ++ [s]) with ((r :: b) ++ [s]). generalize (r :: b). intros l. induction l as [|x l IH]; intros H2; [exact H1|].
        destruct l as [|x' l]; cbn in *; inversion H2; subst; constructor; auto.
  - rewrite E1, E2, (steps_join _ (s :: a) r (b ++ [s])), (steps_join _ (r :: b) s (a ++ [r])). change (r :: b ++ [s]) with ((r :: b) ++ [s]). change (s :: a ++ [r]) with ((s :: a) ++ [r]). lia.
  - change (r :: (b ++ s :: a) ++ [r]) with ((r :: b ++ s :: a) ++ [r]). change (s :: (a ++ r :: b) ++ [s]) with ((s :: a ++ r :: b) ++ [s]).
    rewrite !removelast_last. apply zsum_perm, Permutation_map, Permutation_sym, PM.
Qed.

Lemma best_beats W quota root x x' : best_result W quota root x -> graph_result W root x' -> (quota <= r_prize x')%Z ->
  (r_objective x <= r_objective x')%Z.
Proof.
  intros (_ & _ & O) (s & t & T & I & _) Q. destruct (graph_rotate W s t _ _ root T I) as (t' & T'). exact (O _ _ _ T' Q).
Qed.

Lemma experiment_pre F uuid d e vs v : experiment_vials F uuid d e = Ok vs -> In v vs -> fv_pre v = mkPre false false true false false.
Proof.
  intros EV V. destruct (offered_dec d e) as [O|O].
  - destruct (proj1 (experiment_ok F uuid d e) O) as (vs' & E & _ & A). rewrite E in EV. injection EV as <-. rewrite Forall_forall in A. apply A, V.
  - rewrite (proj2 (experiment_ok F uuid d e) O) in EV. discriminate.
Qed.
