(** * P_Dataset: proofs about the statistics of an instance *)
From Coq Require Import Lia Permutation.
From Verif Require Import Base Graph Spec Spec_Cover Spec_Python Spec_PyWrap Spec_Suurballe
  M_Python M_PyCycle M_PyWrap M_Suurballe M_DisjointMap Spec_Split M_Dataset Spec_Dataset.
From Verif Require Import P_Base P_Python P_PyHeur P_PyWrap P_Suurballe P_Split P_SplitMap.
Open Scope nat_scope.

Lemma py_total_prize_ok pm vs : NoDup (map fst pm) -> (forall u, In u vs -> exists p, entry pm u p) ->
  exists z, py_total_prize pm vs = Ok z /\ prizes_total pm vs z.
Proof.
  intros N H. unfold py_total_prize.
  assert (G : forall l acc, (forall u, In u l -> exists p, entry pm u p) -> exists z,
     foldM (fun acc v => do p <- dfetch pm v; Ok (acc + p)%Z) l acc = Ok (acc + z)%Z /\ prizes_total pm l z).
  { induction l as [|v l IH]; intros acc Hl.
    - exists 0%Z. cbn. rewrite Z.add_0_r. split; [auto|constructor].
    - destruct (Hl v) as (p & Hp); [cbn; auto|]. cbn [foldM]. unfold dfetch at 1.
      rewrite (dget_some pm v p N Hp). cbn [bind].
      destruct (IH (acc + p)%Z) as (z & E & Pz); [intros; apply Hl; cbn; auto|].
      exists (p + z)%Z. rewrite E. split; [f_equal; lia|]. constructor; auto. }
  destruct (G vs 0%Z H) as (z & E & Pz). exists z. rewrite E. auto.
Qed.

Lemma prizes_total_app pm a b x y : prizes_total pm a x -> prizes_total pm b y -> prizes_total pm (a ++ b) (x + y).
Proof.
  induction 1 as [|v l p z E H IH]; intros B; cbn; [exact B|]. replace (p + z + y)%Z with (p + (z + y))%Z by lia. constructor; auto.
Qed.
Lemma prizes_total_split pm a : forall b z, prizes_total pm (a ++ b) z -> exists x y, prizes_total pm a x /\ prizes_total pm b y /\ z = (x + y)%Z.
Proof.
  induction a as [|v a IH]; intros b z H; cbn in H; [exists 0%Z, z; split; [constructor|]; split; [exact H|lia]|].
  inversion H as [|? ? p z' E H']; subst. destruct (IH _ _ H') as (x & y & A & B & ->). exists (p + x)%Z, y.
  split; [constructor; auto|]. split; [exact B|lia].
Qed.
Lemma prizes_total_rev pm a z : prizes_total pm a z -> prizes_total pm (rev a) z.
Proof.
  induction 1 as [|v l p z E H IH]; [constructor|]. cbn. replace (p + z)%Z with (z + (p + 0))%Z by lia.
  apply prizes_total_app; [exact IH|]. repeat constructor. exact E.
Qed.
Lemma prizes_total_one pm v p : entry pm v p -> prizes_total pm [v] p.
Proof. intros E. replace p with (p + 0)%Z by lia. repeat constructor. exact E. Qed.

(** The prize computed for one entry is that of the tour. *)
Lemma pair_prize pm r u f s tour a b pu pr : NoDup (map fst pm) ->
  there_and_back f s tour -> hd_error f = Some r -> last f r = u ->
  prizes_total pm f a -> prizes_total pm s b -> entry pm u pu -> entry pm r pr ->
  prizes_total pm (removelast tour) (a + b - pu - pr).
Proof.
  intros N (s0 & t0 & p & q & -> & -> & ->) H L A B U R. cbn in H. injection H as ->.
  change (r :: p ++ [t0]) with ((r :: p) ++ [t0]) in L. rewrite last_last in L. subst t0.
  inversion A as [|? ? x1 y1 E1 A1]; subst. inversion B as [|? ? x2 y2 E2 B1]; subst.
  assert (x1 = pr) by (apply (entry_unique pm r); assumption). assert (x2 = pr) by (apply (entry_unique pm r); assumption). subst x1 x2.
  apply prizes_total_split in A1. destruct A1 as (xa & xu & A1 & A2 & ->). apply prizes_total_split in B1. destruct B1 as (xb & xu' & B1 & B2 & ->).
  assert (xu = pu) by (apply (prizes_total_fun pm [u]); auto using prizes_total_one).
  assert (xu' = pu) by (apply (prizes_total_fun pm [u]); auto using prizes_total_one). subst xu xu'.
  change (r :: p ++ [u] ++ rev q ++ [r]) with ((r :: p) ++ [u] ++ rev q ++ [r]). rewrite !app_assoc. rewrite removelast_last.
  replace (pr + (xa + pu) + (pr + (xb + pu)) - pu - pr)%Z with (((pr + xa) + pu) + xb)%Z by lia.
  apply prizes_total_app; [apply prizes_total_app; [constructor; assumption|apply prizes_total_one; assumption]|apply prizes_total_rev; assumption].
Qed.

Lemma biggest_pair_ok pm cm paths r : complete_maps pm cm paths ->
  (forall v f s, entry paths v (f, s) -> hd_error f = Some r /\ last f r = v) -> (exists x, entry pm r x) ->
  exists z o, biggest_pair pm r paths = Ok (z, o) /\
    match o with
    | None => z = 0%Z /\ no_prize pm cm paths
    | Some u => (0 < z)%Z /\ largest_prize pm cm paths u z
    end.
Proof.
  intros (N1 & N2 & N3 & C) HE (pr & HR).
  unfold biggest_pair.
  set (F := fun '(biggest_prize, biggest_vertex) '(u, (path1, path2)) =>
    do a <- py_total_prize pm path1; do b <- py_total_prize pm path2; do pu <- dfetch pm u; do pr <- dfetch pm r;
    if Z.ltb biggest_prize (a + b - pu - pr) then Ok ((a + b - pu - pr)%Z, Some u) else Ok (biggest_prize, biggest_vertex)).
  assert (X : forall l z o done, paths = done ++ l ->
    (0 <= z)%Z ->
    (forall v tour z' c, start_tour pm cm done v tour z' c -> (z' <= z)%Z) ->
    match o with None => z = 0%Z | Some u => (0 < z)%Z /\ exists tour c, start_tour pm cm done u tour z c end ->
    exists z' o', foldM F l (z, o) = Ok (z', o') /\ (forall v tour x c, start_tour pm cm paths v tour x c -> (x <= z')%Z) /\
      match o' with None => z' = 0%Z | Some u => (0 < z')%Z /\ exists tour c, start_tour pm cm paths u tour z' c end).
  { induction l as [|(u, (f, s)) l IH]; intros z o done EQ Z0 UB ATT.
    - rewrite app_nil_r in EQ. subst done. exists z, o. auto.
    - assert (IN : entry paths u (f, s)) by (rewrite EQ; apply in_app_iff; cbn; auto).
      destruct (C u f s IN) as ((tour & TB & HP) & cu & HC). destruct (HE u f s IN) as (H1 & H2).
      assert (PF : forall x, In x f -> In x tour) by (destruct TB as (s0 & t0 & p & q & -> & -> & ->); intros x I; cbn in *; rewrite !in_app_iff in *; cbn in *; tauto).
      assert (PS : forall x, In x s -> In x tour).
      { destruct TB as (s0 & t0 & p & q & -> & -> & ->). intros x I. destruct I as [<-|I]; [left; reflexivity|]. apply in_app_iff in I.
        right. apply in_app_iff. right. destruct I as [I|[<-|[]]]; [|left; reflexivity]. right. cbn [app]. apply in_app_iff. left. apply in_rev. rewrite rev_involutive. exact I. }
      destruct (py_total_prize_ok pm f N1 ltac:(intros; apply HP, PF; assumption)) as (a & EA & A).
      destruct (py_total_prize_ok pm s N1 ltac:(intros; apply HP, PS; assumption)) as (b & EB & B).
      assert (UT : In u tour).
      { apply PF. rewrite <- H2. destruct TB as (s0 & t0 & p & q & -> & _ & _). change (s0 :: p ++ [t0]) with ((s0 :: p) ++ [t0]). rewrite last_last. apply in_app_iff. cbn. auto. }
      destruct (HP u UT) as (pu & HU). 
      assert (EF : F (z, o) (u, (f, s)) = if Z.ltb z (a + b - pu - pr) then Ok ((a + b - pu - pr)%Z, Some u) else Ok (z, o)).
      { unfold F. rewrite EA. cbn [bind]. rewrite EB. cbn [bind].
        unfold dfetch. rewrite (dget_some pm u pu N1 HU), (dget_some pm r pr N1 HR). reflexivity. }
      cbn [foldM]. rewrite EF. clear EF.
      pose proof (pair_prize pm r u f s tour a b pu pr N1 TB H1 H2 A B HU HR) as PT.
      set (w := (a + b - pu - pr)%Z) in *.
      assert (EQ' : paths = (done ++ [(u, (f, s))]) ++ l) by (rewrite <- app_assoc; exact EQ).
      assert (ST : start_tour pm cm (done ++ [(u, (f, s))]) u tour w cu).
      { exists f, s. split; [apply in_app_iff; cbn; auto|]. auto. }
      assert (MONO : forall v t x c, start_tour pm cm done v t x c -> start_tour pm cm (done ++ [(u, (f, s))]) v t x c).
      { intros v t x c (f0 & s0 & I & R). exists f0, s0. split; [apply in_app_iff; left; exact I|exact R]. }
      assert (SPL : forall v t x c, start_tour pm cm (done ++ [(u, (f, s))]) v t x c -> start_tour pm cm done v t x c \/ x = w).
      { intros v t x c (f0 & s0 & I & TB0 & P0 & R0). apply in_app_iff in I. destruct I as [I|[I|[]]]; [left; exists f0, s0; auto|].
        injection I as <- <- <-. right. assert (t = tour) by (apply (there_and_back_fun f s); assumption). subst t.
        apply (prizes_total_fun pm (removelast tour)); assumption. }
      destruct (Z.ltb_spec z w) as [LT|GE].
      + destruct (IH w (Some u) _ EQ') as (z' & o' & E' & R); [lia| | |exists z', o'; auto].
        * intros v t x c S0. destruct (SPL _ _ _ _ S0) as [S1 | ->]; [specialize (UB _ _ _ _ S1); lia|lia].
        * split; [lia|]. eauto.
      + destruct (IH z o _ EQ') as (z' & o' & E' & R); [lia| | |exists z', o'; auto].
        * intros v t x c S0. destruct (SPL _ _ _ _ S0) as [S1 | ->]; [eauto|lia].
        * destruct o as [u0|]; [|exact ATT]. destruct ATT as (P0 & t & c & S0). split; [exact P0|]. eauto. }
  destruct (X paths 0%Z None [] eq_refl (Z.le_refl 0)) as (z & o & E & UB & ATT); [|reflexivity|].
  - intros v t x c (f & s & [] & _).
  - exists z, o. split; [exact E|]. destruct o as [u|].
    + destruct ATT as (P0 & t & c & S0). split; [exact P0|]. split; [eauto|exact UB].
    + subst z. split; [reflexivity|]. intros v t x c S0. eauto.
Qed.

Lemma edge_get_unique (d : list ((nat * nat) * Z)) u v x : NoDup (map fst d) -> In ((u, v), x) d -> edge_get d u v = Some x.
Proof.
  unfold edge_get. induction d as [|((a, b), y) d IH]; intros N I; [destruct I|]. cbn [find fst snd].
  inversion N as [|? ? NI N']; subst. destruct I as [I|I].
  - injection I as -> -> ->. rewrite !Nat.eqb_refl. reflexivity.
  - destruct (andb (Nat.eqb a u) (Nat.eqb b v)) eqn:E; [|apply IH; assumption].
    apply andb_true_iff in E. destruct E as (E1 & E2). apply Nat.eqb_eq in E1, E2. subst. exfalso. apply NI. apply in_map_iff. exists (u, v, x). auto.
Qed.

Lemma node_attr W v x : entry (get_node_attributes W) v x <-> vertex (pg_adj W) v /\ pg_prize W v = Some x.
Proof. unfold entry, get_node_attributes. rewrite flat_In. unfold nx_nodes, vertex. reflexivity. Qed.
Lemma node_attr_NoDup W : undirected (pg_adj W) -> NoDup (map fst (get_node_attributes W)).
Proof. intros (N & _). unfold get_node_attributes. rewrite flat_keys. apply NoDup_filter. exact N. Qed.

Lemma total_cost_ok W : undirected (pg_adj W) -> attributes_given (pg_adj W) (pg_cost W) (pg_prize W) ->
  py_total_cost (get_edge_attributes W) (py_edges W) = Ok (zsum (view_costs W)).
Proof.
  intros U (_ & HC). unfold py_total_cost, view_costs.
  assert (N : NoDup (map fst (get_edge_attributes W))).
  { unfold get_edge_attributes. rewrite (flat_keys (fun e => pg_cost W (fst e) (snd e))). apply NoDup_filter. apply edges_NoDup. exact U. }
  assert (X : forall l acc, incl l (py_edges W) -> foldM (fun acc '(u, v) =>
    match edge_get (get_edge_attributes W) u v with
    | Some x => Ok (acc + x)%Z
    | None => match edge_get (get_edge_attributes W) v u with Some x => Ok (acc + x)%Z | None => Throw KeyErrorPy end
    end) l acc = Ok (acc + zsum (map (fun e => attr (pg_cost W (fst e) (snd e))) l))%Z).
  { induction l as [|(u, v) l IH]; intros acc I; cbn [foldM map zsum]; [f_equal; lia|].
    assert (J : In (u, v) (py_edges W)) by (apply I; left; reflexivity).
    destruct (HC u v) as (x & E).
    { apply (edges_adj (pg_adj W) u v U). left. exact J. }
    rewrite (edge_get_unique _ u v x N).
    2:{ unfold get_edge_attributes. apply (flat_In (fun e => pg_cost W (fst e) (snd e))). auto. }
    cbn [bind fst snd]. rewrite IH by (intros y Y; apply I; right; exact Y). rewrite E. cbn [attr]. f_equal. lia. }
  rewrite X by (apply incl_refl). f_equal.
Qed.

Lemma total_prize_all W vs : undirected (pg_adj W) -> (forall v, In v vs -> exists x, pg_prize W v = Some x /\ vertex (pg_adj W) v) ->
  py_total_prize (get_node_attributes W) vs = Ok (zsum (map (fun v => attr (pg_prize W v)) vs)).
Proof.
  intros U H. destruct (py_total_prize_ok (get_node_attributes W) vs (node_attr_NoDup W U)) as (z & E & P).
  - intros u I. destruct (H u I) as (x & EX & VX). exists x. apply node_attr. auto.
  - rewrite E. f_equal. clear E H. induction P as [|v l p z E P IH]; [reflexivity|]. cbn. apply node_attr in E. destruct E as (_ & ->). cbn. lia.
Qed.

Lemma measured_ok W : undirected (pg_adj W) -> attributes_given (pg_adj W) (pg_cost W) (pg_prize W) ->
  exists tc tp, py_total_cost (get_edge_attributes W) (py_edges W) = Ok tc /\
    py_total_prize (get_node_attributes W) (nx_nodes (pg_adj W)) = Ok tp /\
    tp = zsum (map (fun v => attr (pg_prize W v)) (nx_nodes (pg_adj W))) /\
    measured (pg_adj W) (pg_cost W) (pg_prize W) (length (pg_adj W)) (length (py_edges W)) tc tp.
Proof.
  intros U A. do 2 eexists. split; [apply total_cost_ok; assumption|]. split; [apply total_prize_all; [exact U|]|].
  - intros v I. destruct A as (AP & _). destruct (AP v I) as (x & E). exists x. split; [exact E|exact I].
  - split; [reflexivity|]. split.
    + exists (view_graph (S (list_max (nx_nodes (pg_adj W)))) W), (view_costs W), (view_prizes (S (list_max (nx_nodes (pg_adj W)))) W).
      split; [|auto]. apply view_ok; [exact U|]. intros v I.
      assert (L : forall l, In v l -> v <= list_max l).
      { intros l J. pose proof (list_max_le l (list_max l)) as [X _]. specialize (X (le_n _)). rewrite Forall_forall in X. auto. }
      apply L in I. unfold nx_nodes. lia.
    + exists (nx_nodes (pg_adj W)). split; [apply U|]. split; [intros v; reflexivity|]. split; [unfold nx_nodes; rewrite map_length; reflexivity|reflexivity].
Qed.

Lemma fold_max l : forall x, let m := fold_left Z.max l x in (m = x \/ In m l) /\ (x <= m)%Z /\ (forall y, In y l -> (y <= m)%Z).
Proof.
  induction l as [|a l IH]; intros x; cbn; [split; [auto|split; [lia|tauto]]|].
  destruct (IH (Z.max x a)) as (M & L & U). cbn in M, L, U. split; [|split; [lia|]].
  - destruct M as [M|M]; [|auto]. rewrite M. destruct (Z.max_spec x a) as [(_ & ->)|(_ & ->)]; auto.
  - intros y [->|I]; [lia|auto].
Qed.

Lemma py_max_ok (m : list (nat * Z)) : m <> [] -> exists z, py_max (map snd m) = Ok z /\ largest_value m z.
Proof.
  intros NE. destruct m as [|(k, x) m]; [congruence|]. cbn [map py_max snd]. destruct (fold_max (map snd m) x) as (M & L & U). cbn in M, L, U.
  set (z := fold_left Z.max (map snd m) x) in *. exists z. split; [reflexivity|]. split.
  - destruct M as [M|M]; [exists k; left; rewrite M; reflexivity|]. apply in_map_iff in M. destruct M as ((v, y) & E & I). cbn in E. subst y. exists v. right. exact I.
  - intros v y [I|I]; [injection I as -> ->; exact L|]. apply U. apply in_map_iff. exists (v, y). auto.
Qed.

Section STATS.
Context (names_of : nat -> split_names) (depth : nat) (bicomps : nxgraph -> list (list nat)) (W : pygraph).
Context (G : graph) (c p : list Z) (vt vh : nat -> nat) (D : dgraph) (root : nat) (dist : list (nat * Z)) (paths : list (nat * list nat)).
Context (cm : list (nat * Z)) (pm : list (nat * (list nat * list nat))).
Let V := map fst (pg_adj W).
Let N := names_of (list_max V).
Let prize := get_node_attributes W.
Context (U : undirected (pg_adj W)) (AG : attributes_given (pg_adj W) (pg_cost W) (pg_prize W))
  (BL : blocks_of (pg_adj W) (bicomps (pg_adj W)))
  (SG : same_graph (pg_adj W) (pg_cost W) (pg_prize W) G c p) (SC : split_call G c V vt vh D N root dist paths)
  (DEP : paths_within depth paths) (NN : costs_from c 0)
  (EM : disjoint_maps N depth D (vh root) dist paths = Ok (cm, pm)).

Let h := remove_one_connected_components bicomps (pg_adj W) root.
Let run := get_graph_stats names_of depth bicomps W D (vh root) dist paths root.

Lemma stats_run : exists T st tc tp pc pp,
  suurballe_shortest_vertex_disjoint_paths depth D (vh root) dist paths = Ok (T, st) /\
  vertex_disjoint_cost_map N T st = Ok cm /\
  measured (pg_adj W) (pg_cost W) (pg_prize W) (length (pg_adj W)) (length (py_edges W)) tc tp /\
  tp = zsum (map (fun v => attr (pg_prize W v)) V) /\
  measured h (pg_cost W) (pg_prize W) (length h) (length (edges_from [] h)) pc pp /\
  induced_subgraph h (pg_adj W) /\
  (forall v, vertex h v <-> vertex (pg_adj W) v /\ (v = root \/ exists t, cycle_at (adj (pg_adj W)) root t /\ In v t)) /\
  exists z o, match o with None => z = 0%Z /\ no_prize prize cm pm | Some u => (0 < z)%Z /\ largest_prize prize cm pm u z end /\
    run = (do r <- ratio z tp;
           do m <- match o with Some u => vertex_disjoint_cost_map (names_of u) T st | None => Throw TypeErrorPy end;
           do x <- py_max (map snd m);
           do r' <- ratio pp tp;
           Ok (mkInst (length (pg_adj W)) (length (py_edges W)) tc tp z r x (length h) (length (edges_from [] h)) pc pp r')).
Proof.
  unfold run. unfold disjoint_maps in EM.
  destruct (suurballe_shortest_vertex_disjoint_paths depth D (vh root) dist paths) as [[T st]|e|u|] eqn:ES; cbn [bind] in EM; try discriminate.
  destruct (vertex_disjoint_cost_map N T st) as [cm'|e|u|] eqn:EC; cbn [bind] in EM; try discriminate.
  destruct (undirected_vertex_disjoint_paths_map N T st) as [pm'|e|u|] eqn:EP; cbn [bind] in EM; try discriminate.
  injection EM as -> ->.
  destruct (measured_ok W U AG) as (tc & tp & E1 & E2 & ETP & M1).
  destruct (one_connected_ok bicomps (pg_adj W) root U BL) as (IS & VH & _). fold h in IS, VH.
  set (W' := mkPy h (pg_cost W) (pg_prize W)).
  assert (A' : attributes_given (pg_adj W') (pg_cost W') (pg_prize W')).
  { destruct AG as (AP & AC), IS as (_ & IV & IA). split; cbn; [intros v I; apply AP, IV; exact I|intros a b I; apply AC, IA; exact I]. }
  assert (U' : undirected (pg_adj W')) by apply IS.
  destruct (measured_ok W' U' A') as (pc & pp & F1 & F2 & _ & M2).
  assert (EM' : disjoint_maps N depth D (vh root) dist paths = Ok (cm, pm)).
  { unfold disjoint_maps. rewrite ES. cbn [bind]. rewrite EC. cbn [bind]. rewrite EP. reflexivity. }
  assert (GO : graph_ok G) by apply SG.
  assert (HP : forall v, In v V -> exists x, entry prize v x).
  { intros v I. destruct AG as (AP & _). destruct (AP v I) as (x & E). exists x. apply node_attr. split; [exact I|exact E]. }
  destruct (split_start_ok depth G c V vt vh D N root dist paths cm pm prize SC DEP NN GO (node_attr_NoDup W U) HP EM') as (CM & _).
  destruct (split_maps depth G c V vt vh D N root dist paths SC DEP NN) as (cm' & pm' & E' & N1 & N2 & K & HH & _).
  rewrite EM' in E'. injection E' as <- <-.
  destruct (biggest_pair_ok prize cm pm root CM) as (z & o & EB & HB).
  { intros v f s I. assert (J : In v (map fst cm)) by (apply K, in_map_iff; exists (v, (f, s)); auto).
    apply in_map_iff in J. destruct J as ((k & x) & EK & J). cbn in EK. subst k.
    destruct (HH v x J) as (_ & q1 & q2 & I' & _ & _ & (p' & q' & z1 & z2 & -> & _) & _).
    assert (X : (root :: p' ++ [v], q2) = (f, s)) by (apply (entry_unique pm v); assumption). injection X as <- _.
    split; [reflexivity|]. change (root :: p' ++ [v]) with ((root :: p') ++ [v]). apply last_last. }
  { apply HP. apply (sc_root _ _ _ _ _ _ _ _ _ _ SC). }
  exists T, st, tc, tp, pc, pp. split; [reflexivity|]. split; [exact EC|]. split; [exact M1|]. split; [exact ETP|]. split; [exact M2|].
  split; [exact IS|]. split; [exact VH|]. exists z, o. split; [exact HB|].
  unfold get_graph_stats. rewrite E1. cbn [bind]. rewrite E2. cbn [bind]. rewrite ES. cbn [bind].
  change (names_of (list_max (nx_nodes (pg_adj W)))) with N. rewrite EP. cbn [bind]. fold prize. rewrite EB. cbn [bind].
  destruct (ratio z tp) as [r|e|ub|]; cbn [bind]; try reflexivity.
  destruct (match o with Some u => vertex_disjoint_cost_map (names_of u) T st | None => Throw TypeErrorPy end) as [m|e|ub|]; cbn [bind]; try reflexivity.
  destruct (py_max (map snd m)) as [x|e|ub|]; cbn [bind]; try reflexivity.
  fold h. fold W'. rewrite F1. cbn [bind]. rewrite F2. cbn [bind].
  destruct (ratio pp tp); reflexivity.
Qed.
End STATS.

(** The tour of an entry other than the root is simple. *)
Lemma simple_start depth G c V vt vh D N root dist paths cm pm prize u tour z cost :
  split_call G c V vt vh D N root dist paths -> paths_within depth paths -> costs_from c 1 -> graph_ok G ->
  NoDup (map fst prize) -> (forall v, In v V -> exists x, entry prize v x) ->
  disjoint_maps N depth D (vh root) dist paths = Ok (cm, pm) ->
  start_tour prize cm pm u tour z cost -> u <> root -> tour_from G root tour /\ any_cost G c tour cost.
Proof.
  intros SC DEP C1 GO NP HP EM ST NR.
  assert (NN : costs_from c 0) by (intros e w E; specialize (C1 e w E); lia).
  destruct (split_start_ok depth G c V vt vh D N root dist paths cm pm prize SC DEP NN GO NP HP EM) as (_ & FS).
  destruct (split_maps depth G c V vt vh D N root dist paths SC DEP NN) as (cm' & pm' & E' & N1 & N2 & K & HH & _).
  rewrite EM in E'. injection E' as <- <-. apply (FS z u tour cost). exists z. split; [exact ST|]. split; [lia|].
  destruct ST as (f & s & I & TB & _ & EC). destruct (HH u cost EC) as (_ & f' & s' & I' & _ & _ & _ & X).
  assert (Q : (f', s') = (f, s)) by (apply (entry_unique pm u); assumption). injection Q as -> ->.
  destruct (X NR) as (_ & VD). destruct (VD C1) as ((_ & _) & (_ & _) & _ & NF & NS & DJ & _).
  destruct TB as (s0 & t0 & a & b & -> & -> & ->).
  change (s0 :: a ++ [t0] ++ rev b ++ [s0]) with ((s0 :: a) ++ [t0] ++ rev b ++ [s0]). rewrite !app_assoc. rewrite removelast_last.
  change ((s0 :: a) ++ [t0]) with (s0 :: a ++ [t0]). apply NoDup_app_iff. split; [exact NF|].
  change (s0 :: b ++ [t0]) with ((s0 :: b) ++ [t0]) in NS. apply NoDup_app_iff in NS. destruct NS as (NB & _ & NT).
  inversion NB as [|? ? NI NB']; subst. split; [apply NoDup_rev; exact NB'|].
  intros x I1 I2. apply in_rev in I2. assert (J : x = s0 \/ x = t0).
  { assert (x = root \/ x = u) as R by (apply DJ; [exact I1|right; apply in_app_iff; left; exact I2]).
    destruct (HH u cost EC) as (_ & f1 & s1 & I1' & _ & _ & (p' & q' & z1 & z2 & E1 & E2 & _) & _).
    assert (Q : (f1, s1) = (s0 :: a ++ [t0], s0 :: b ++ [t0])) by (apply (entry_unique pm u); assumption).
    injection Q as -> ->. injection E1 as -> E1. apply app_inj_tail in E1. destruct E1 as (_ & ->). exact R. }
  destruct J as [-> | ->]; [contradiction|]. apply (NT t0); [right; exact I2|left; reflexivity].
Qed.

Lemma zsum_perm l l' : Permutation l l' -> zsum l = zsum l'.
Proof. induction 1; cbn; lia. Qed.

(** Tails keep their number [v <= k], heads are numbered [S k + v]. *)
Definition low_names (k : nat) : split_names :=
  mkNames (fun x => Nat.leb x k) (fun x => x)
    (fun w => match w with [] => [] | u :: r => u - S k :: filter (fun x => Nat.leb x k) r end).

Lemma low_names_ok k V : (forall v, In v V -> v <= k) -> names_ok V (fun v => v) (fun v => S k + v) (low_names k).
Proof.
  intros H. constructor.
  - intros v I. cbn. apply Nat.leb_le. auto.
  - intros v I. cbn [low_names is_tail]. apply Nat.leb_gt. lia.
  - intros v _. reflexivity.
  - intros p I L. destruct p as [|u p]; [cbn in L; lia|]. cbn [split_walk low_names original_path]. f_equal; [lia|]. clear L.
    assert (IP : incl p V) by (intros x J; apply I; right; exact J). clear I.
    induction p as [|v p IH]; [reflexivity|]. assert (v <= k) by (apply H, IP; left; reflexivity). destruct p as [|b p].
    + cbn [split_rest filter]. rewrite (proj2 (Nat.leb_le v k)) by lia. reflexivity.
    + change (split_rest (fun v => v) (fun v => S k + v) (v :: b :: p)) with (v :: (S k + v) :: split_rest (fun v => v) (fun v => S k + v) (b :: p)).
      cbn [filter]. rewrite (proj2 (Nat.leb_le v k)) by lia. rewrite (proj2 (Nat.leb_gt (S k + v) k)) by lia.
      rewrite IH by (intros x J; apply IP; right; exact J). reflexivity.
Qed.

Lemma low_call_check g c k V D root dist paths : (forall v, In v V -> v <= k) -> In root V ->
  split_graphb g c V (fun v => v) (fun v => S k + v) D = true -> shortestb D (S k + root) dist paths = true ->
  split_call g c V (fun v => v) (fun v => S k + v) D (low_names k) root dist paths.
Proof.
  intros HV HR HG HS. apply split_graphb_ok in HG. pose proof (sg_directed _ _ _ _ _ _ HG) as HD.
  destruct (shortestb_ok D (S k + root) dist paths HD HS) as (SD & SP). constructor; auto. apply low_names_ok. exact HV.
Qed.

(** A graph with a cycle through all vertices is one block; [rot v] is that cycle from [v]. *)
Lemma one_block (g : nxgraph) V (rot : nat -> list nat) : map fst g = V -> nodupb V = true ->
  forallb (fun u => nodupb (u :: rot u) && Nat.leb 2 (length (rot u)) && chainb g (u :: rot u ++ [u]) && forallb (fun v => memb v (u :: rot u)) V) V = true ->
  undirected g -> blocks_of g [V].
Proof.
  intros EV ND HC U. apply nodupb_ok in ND. rewrite forallb_forall in HC. split; [|split].
  - intros c [<-|[]]. split; [exact ND|]. intros v I. unfold vertex. rewrite EV. exact I.
  - intros r t C. exists V. split; [left; reflexivity|]. intros v I.
    destruct (cycle_two_neighbours _ _ _ U C v I) as (a & _ & _ & _ & _ & _ & _ & A & _). apply adj_vertex in A. unfold vertex in A. rewrite EV in A. exact A.
  - intros c u v [<-|[]] L Iu Iv NE. specialize (HC u Iu). apply andb_prop in HC. destruct HC as (HC & HV).
    exists (u :: rot u ++ [u]). split; [apply cycle_check; exact HC|]. rewrite forallb_forall in HV. specialize (HV v Iv). apply memb_In in HV.
    cbn in *. rewrite in_app_iff. tauto.
Qed.

(** All attributes are given. *)
Lemma attributes_check W : undirected (pg_adj W) ->
  forallb (fun v => match pg_prize W v with Some _ => true | None => false end) (map fst (pg_adj W)) = true ->
  forallb (fun e => forallb (fun v => match pg_cost W (fst e) v with Some _ => true | None => false end) (snd e)) (pg_adj W) = true ->
  attributes_given (pg_adj W) (pg_cost W) (pg_prize W).
Proof.
  intros U H1 H2. rewrite forallb_forall in H1, H2. split.
  - intros v I. specialize (H1 v I). destruct (pg_prize W v) as [x|]; [eauto|discriminate].
  - intros u v (l & I & J). specialize (H2 _ I). cbn in H2. rewrite forallb_forall in H2. specialize (H2 v J).
    destruct (pg_cost W u v) as [x|]; [eauto|discriminate].
Qed.

(** The prize of a tour by computation. *)
Lemma start_prize pm cm paths u tour z x : NoDup (map fst pm) -> start_tour pm cm paths u tour z x ->
  exists f s, entry paths u (f, s) /\ tour_from_vertex_disjoint_paths (f, s) = Ok tour /\ py_total_prize pm (removelast tour) = Ok z.
Proof.
  intros N (f & s & I & TB & PT & _). exists f, s. split; [exact I|]. split; [apply P_PyHeur.there_and_back_code; exact TB|].
  destruct (py_total_prize_ok pm (removelast tour) N) as (z' & E & PT').
  - clear - PT. induction PT as [|v l p z E H IH]; [intros u []|]. intros u [<-|I]; eauto.
  - rewrite E. f_equal. apply (P_PyHeur.prizes_total_fun pm (removelast tour)); assumption.
Qed.
