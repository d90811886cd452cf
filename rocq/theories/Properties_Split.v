(** * Properties_Split: the theorems for C59 (pctsp/preprocessing/preprocessing.py: costs and
    pairs of vertex-disjoint paths, and how they are used) *)
From Coq Require Import Lia Permutation.
From Verif Require Import Base Graph Spec Spec_Cover Spec_Python Spec_Rename Spec_ILP Spec_Solve Spec_Suurballe
  M_Walk M_Graph M_Dijkstra M_Solution M_ILP M_Subtour M_CycleCover M_CostCover M_MaxFlow M_Solve M_Python M_PyCycle M_PyWrap M_Suurballe M_DisjointMap Spec_Split.
From Verif Require Import P_Base P_Dijkstra P_Check P_CheckILP P_Solve P_SolveBind P_Python P_PyWrap P_Suurballe P_Split P_SplitMap.
From Verif Require Import Properties_Python Properties_PyWrap Properties_Solve.
Open Scope nat_scope.

(** Suurballe's algorithm on the split graph gives maps with the same keys. A vertex other than
    the root with an entry has the least total cost of two vertex-disjoint paths from the root
    as cost, and (if all costs are positive) such a pair as paths; for a vertex without an entry
    every pair costs at least sys.maxsize. *)
Theorem C59_disjoint_maps depth g c V vt vh D N root dist paths :
  split_call g c V vt vh D N root dist paths -> paths_within depth paths -> costs_from c 0 ->
  exists cm pm, disjoint_maps N depth D (vh root) dist paths = Ok (cm, pm) /\
    NoDup (map fst cm) /\ NoDup (map fst pm) /\ (forall v, In v (map fst cm) <-> In v (map fst pm)) /\
    (forall v z, entry cm v z -> In v V /\
       exists p q, entry pm v (p, q) /\ incl p V /\ incl q V /\ apart_inside g c root v p q z /\
       (v <> root -> (forall p' q' z', vertex_disjoint g c root v p' q' z' -> (z <= z')%Z) /\
          (costs_from c 1 -> vertex_disjoint g c root v p q z))) /\
    (forall v p q z, ~ In v (map fst cm) -> v <> root -> vertex_disjoint g c root v p q z -> (py_maxsize <= z)%Z).
Proof. exact (split_maps depth g c V vt vh D N root dist paths). Qed.
Print Assumptions C59_disjoint_maps.

(** A tour through the root and another vertex costs at least the entry of that vertex; without
    the entry of the root the map meets the assumption of C57 about the distance bounds. *)
Theorem C59_tour_bounds depth g c V vt vh D N root dist paths cm pm d :
  split_call g c V vt vh D N root dist paths -> paths_within depth paths -> costs_from c 0 ->
  disjoint_maps N depth D (vh root) dist paths = Ok (cm, pm) ->
  (forall t z v x, tour_from g root t -> any_cost g c t z -> In v t -> v <> root -> entry cm v x -> (x <= z)%Z) /\
  (prizes_given g (filter (fun kx => negb (Nat.eqb (fst kx) root)) cm) d -> tour_bounds g c root d).
Proof. exact (split_tour_bounds depth g c V vt vh D N root dist paths cm pm d). Qed.
Print Assumptions C59_tour_bounds.

(** The root has an entry too: twice the sum of its two cheapest edges (to [a] and [b]). *)
Theorem C59_root_entry depth g c V vt vh D N root dist paths cm pm e f a b x y :
  split_call g c V vt vh D N root dist paths -> paths_within depth paths -> costs_from c 0 ->
  disjoint_maps N depth D (vh root) dist paths = Ok (cm, pm) ->
  joins g e root a -> nth_error c e = Some x -> joins g f root b -> nth_error c f = Some y -> a <> b -> (x <= y)%Z ->
  (forall e' v w, joins g e' root v -> nth_error c e' = Some w -> (x <= w)%Z /\ (v <> a -> y <= w)%Z) ->
  (2 * (x + y) < py_maxsize)%Z -> entry cm root (2 * (x + y))%Z.
Proof. exact (split_root_entry depth g c V vt vh D N root dist paths cm pm e f a b x y). Qed.
Print Assumptions C59_root_entry.

(** suurballes_heuristic with these maps returns nothing or a simple tour from the root whose
    cost is the entry of the cost map, that collects the quota and is the cheapest such. *)
Theorem C59_suurballes_heuristic depth g c V vt vh D N root dist paths cm pm prize quota :
  split_call g c V vt vh D N root dist paths -> paths_within depth paths -> costs_from c 0 -> graph_ok g ->
  NoDup (map fst prize) -> (forall v, In v V -> exists x, entry prize v x) ->
  disjoint_maps N depth D (vh root) dist paths = Ok (cm, pm) ->
  exists tour, suurballes_heuristic prize quota cm pm = Ok tour /\
    ((tour = [] /\ forall v tour' cost, feasible_start prize quota cm pm v tour' cost -> (py_maxsize <= cost)%Z) \/
     exists z cost, tour_from g root tour /\ any_cost g c tour cost /\ prizes_total prize (removelast tour) z /\ (quota <= z)%Z /\
       forall v' tour' cost', feasible_start prize quota cm pm v' tour' cost' -> (cost <= cost')%Z).
Proof.
  intros SC DEP NN GO NP HP E.
  destruct (split_start_ok depth g c V vt vh D N root dist paths cm pm prize SC DEP NN GO NP HP E) as (CM & FS).
  destruct (C39_suurballes_heuristic prize cm pm quota CM) as (tour & ET & H). exists tour. split; [exact ET|].
  destruct H as [H|(v & cost & _ & F & M)]; [left; exact H|right].
  destruct (FS quota v tour cost F) as (T & A). destruct F as (z & (f & s & _ & _ & PT & _) & Q & _). exists z, cost. auto 8.
Qed.
Print Assumptions C59_suurballes_heuristic.

(** The starting tour of the other heuristics is simple if some pair of the map is feasible. *)
Theorem C59_tour_initialization depth g c V vt vh D N root dist paths cm pm prize quota v tour0 cost0 :
  split_call g c V vt vh D N root dist paths -> paths_within depth paths -> costs_from c 0 -> graph_ok g ->
  NoDup (map fst prize) -> (forall v, In v V -> exists x, entry prize v x) ->
  disjoint_maps N depth D (vh root) dist paths = Ok (cm, pm) ->
  feasible_start prize quota cm pm v tour0 cost0 -> (cost0 < py_maxsize)%Z ->
  exists tour z cost, suurballes_tour_initialization prize quota cm pm = Ok tour /\
    tour_from g root tour /\ any_cost g c tour cost /\ (cost <= cost0)%Z /\
    prizes_total prize (removelast tour) z /\ (quota <= z)%Z.
Proof.
  intros SC DEP NN GO NP HP E F0 L0.
  destruct (split_start_ok depth g c V vt vh D N root dist paths cm pm prize SC DEP NN GO NP HP E) as (CM & FS).
  destruct (C39_tour_initialization prize cm pm quota CM) as (tour & ET & H).
  destruct H as [(v' & cost & _ & F & M)|(H & _)]; [|specialize (H _ _ _ F0); lia].
  destruct (FS quota v' tour cost F) as (T & A). specialize (M _ _ _ F0). destruct F as (z & (f & s & _ & _ & PT & _) & Q & _). exists tour, z, cost. auto 8.
Qed.
Print Assumptions C59_tour_initialization.

(** So run_heuristic starts the Suurballe algorithms with a closed tour at the root, as C56
    assumes, that collects the quota. *)
Theorem C59_heuristic_start depth W G c V vt vh D N root dist paths cm pm quota v tour0 cost0 set_order algorithm :
  algorithm = SuurballesExtensionCollapse \/ algorithm = SuurballesPathExtensionCollapse ->
  split_call G c V vt vh D N root dist paths -> paths_within depth paths -> costs_from c 0 -> graph_ok G ->
  NoDup (map fst (get_node_attributes W)) -> (forall v, In v V -> exists x, entry (get_node_attributes W) v x) ->
  disjoint_maps N depth D (vh root) dist paths = Ok (cm, pm) ->
  feasible_start (get_node_attributes W) quota cm pm v tour0 cost0 -> (cost0 < py_maxsize)%Z ->
  exists t z, heuristic_start set_order W quota root algorithm cm pm = Ok t /\ closed_tour G root 2 t /\
    prizes_total (get_node_attributes W) (removelast t) z /\ (quota <= z)%Z.
Proof.
  intros AL SC DEP NN GO NP HP E F0 L0.
  destruct (C59_tour_initialization depth G c V vt vh D N root dist paths cm pm (get_node_attributes W) quota v tour0 cost0 SC DEP NN GO NP HP E F0 L0)
    as (t & z & cost & ET & T & _ & _ & PT & Q).
  exists t, z. split; [|split; [exact T|split; [exact PT|exact Q]]].
  destruct F0 as (pr & (f & s & I & _ & _ & J) & _). unfold heuristic_start. unfold entry in I, J.
  destruct cm as [|cm0 cm]; [destruct J|]. destruct pm as [|pm0 pm]; [destruct I|]. destruct AL as [-> | ->]; exact ET.
Qed.
Print Assumptions C59_heuristic_start.

(** ** cases *)

(** Four vertices 0 (root), 1, 2, 3 with all edges but 0-3, and 4 joined to 3 only. *)
Definition sp4 : graph := mkGraph 5 [(0,1);(0,2);(1,2);(1,3);(2,3);(3,4)].
Definition sp4_c : list Z := [1;4;2;5;1;1]%Z.
Definition sp4_D : dgraph := [(10, [(0, 0%Z)]); (11, [(1, 0%Z)]); (12, [(2, 0%Z)]); (13, [(3, 0%Z)]); (14,
   [(4, 0%Z)]); (0, [(11, 1%Z); (12, 4%Z)]); (1, [(10, 1%Z); (12, 2%Z); (13, 5%Z)]); (2, [(10, 4%Z); (11,
   2%Z); (13, 1%Z)]); (3, [(11, 5%Z); (12, 1%Z); (14, 1%Z)]); (4, [(13, 1%Z)])].
Definition sp4_dist : list (nat * Z) := [(0, 0%Z); (11, 1%Z); (1, 1%Z); (10, 2%Z); (12, 3%Z); (2, 3%Z); (13,
   4%Z); (3, 4%Z); (14, 5%Z); (4, 5%Z)].
Definition sp4_paths : list (nat * list nat) := [(0, [0]); (11, [0; 11]); (12, [0; 11; 1; 12]); (1, [0; 11;
   1]); (10, [0; 11; 1; 10]); (13, [0; 11; 1; 12; 2; 13]); (2, [0; 11; 1; 12; 2]); (3, [0; 11; 1; 12; 2; 13;
   3]); (14, [0; 11; 1; 12; 2; 13; 3; 14]); (4, [0; 11; 1; 12; 2; 13; 3; 14; 4])].

Lemma call_check g c k V D root dist paths : (forall v, In v V -> v < k) -> In root V ->
  split_graphb g c V (fun v => k + v) (fun v => v) D = true -> shortestb D root dist paths = true ->
  split_call g c V (fun v => k + v) (fun v => v) D (shifted_names k) root dist paths.
Proof.
  intros HV HR HG HS. apply split_graphb_ok in HG. pose proof (sg_directed _ _ _ _ _ _ HG) as HD.
  destruct (shortestb_ok D root dist paths HD HS) as (SD & SP). constructor; auto. apply shifted_names_ok. exact HV.
Qed.

Lemma costs_check c lo : forallb (fun x => Z.leb lo x) c = true -> costs_from c lo.
Proof. rewrite forallb_forall. intros H e w E. apply nth_error_In in E. apply Z.leb_le. apply H. exact E. Qed.

Example C59_case : split_call sp4 sp4_c [0;1;2;3;4] (fun v => 10 + v) (fun v => v) sp4_D (shifted_names 10) 0 sp4_dist sp4_paths /\
  costs_from sp4_c 1 /\ graph_ok sp4 /\
  disjoint_maps (shifted_names 10) 100 sp4_D 0 sp4_dist sp4_paths =
    Ok ([(1, 7%Z); (2, 7%Z); (0, 10%Z); (3, 11%Z)],
        [(1, ([0; 2; 1], [0; 1])); (2, ([0; 2], [0; 1; 2])); (0, ([0; 2; 0], [0; 1; 0])); (3, ([0; 1; 3], [0; 2; 3]))]) /\
  joins sp4 0 0 1 /\ joins sp4 1 0 2.
Proof.
  split; [apply call_check; [cbn; lia|cbn; tauto|vm_compute; reflexivity|vm_compute; reflexivity]|].
  split; [apply costs_check; reflexivity|]. split; [check|]. split; [vm_compute; reflexivity|]. split; left; reflexivity.
Qed.

Definition sp4_prize : list (nat * Z) := [(0, 1%Z); (1, 1%Z); (2, 1%Z); (3, 1%Z); (4, 1%Z)].
Definition sp4_cm : list (nat * Z) := [(1, 7%Z); (2, 7%Z); (0, 10%Z); (3, 11%Z)].
Definition sp4_pm : list (nat * (list nat * list nat)) :=
  [(1, ([0; 2; 1], [0; 1])); (2, ([0; 2], [0; 1; 2])); (0, ([0; 2; 0], [0; 1; 0])); (3, ([0; 1; 3], [0; 2; 3]))].

Example C59_start_case : prizes_given sp4 (filter (fun kx => negb (Nat.eqb (fst kx) 0)) sp4_cm) [0;7;7;11;0]%Z /\
  feasible_start sp4_prize 4 sp4_cm sp4_pm 3 [0;1;3;2;0] 11 /\
  suurballes_heuristic sp4_prize 4 sp4_cm sp4_pm = Ok [0;1;3;2;0] /\
  suurballes_heuristic sp4_prize 3 sp4_cm sp4_pm = Ok [0;2;1;0] /\
  suurballes_heuristic sp4_prize 5 sp4_cm sp4_pm = Ok [].
Proof.
  split.
  { split; [reflexivity|]. split.
    - intros v x H. repeat (destruct H as [H|H]; [inversion H; subst; split; [simpl; tauto|reflexivity]|]). destruct H.
    - intros v Hv Hno. cbn in Hv.
      repeat (destruct Hv as [<-|Hv]; [first [reflexivity | exfalso; eapply Hno; simpl; tauto]|]). destruct Hv. }
  split; [|vm_compute; auto].
  exists 4%Z. split; [|split; [lia|apply nodupb_ok; reflexivity]]. exists [0;1;3], [0;2;3]. split; [unfold entry; cbn; tauto|].
  split; [exists 0, 3, [1], [2]; auto|]. split; [|unfold entry; cbn; tauto].
  change 4%Z with (1 + (1 + (1 + (1 + 0))))%Z. repeat (constructor; [unfold entry; cbn; tauto|]). constructor.
Qed.

(** ** the entry of the root *)

(** A triangle with unit costs: the entry of the root is 4, but the tour costs 3. The cost cover
    handler compares the entry with the cost of the starting tour and adds the row
    2 x_rr <= 1 for the self loop of the root, which no tour satisfies. *)
Definition tri1_D : dgraph := [(10, [(0, 0%Z)]); (11, [(1, 0%Z)]); (12, [(2, 0%Z)]); (0, [(11, 1%Z); (12,
   1%Z)]); (1, [(10, 1%Z); (12, 1%Z)]); (2, [(11, 1%Z); (10, 1%Z)])].
Definition tri1_dist : list (nat * Z) := [(0, 0%Z); (11, 1%Z); (1, 1%Z); (12, 1%Z); (2, 1%Z); (10, 2%Z)].
Definition tri1_paths : list (nat * list nat) := [(0, [0]); (11, [0; 11]); (12, [0; 12]); (1, [0; 11; 1]); (10,
   [0; 11; 1; 10]); (2, [0; 12; 2])].

Theorem C59_root_bound_refuted : exists g c D dist paths cm pm t,
  split_call g c [0;1;2] (fun v => 10 + v) (fun v => v) D (shifted_names 10) 0 dist paths /\ costs_from c 1 /\
  disjoint_maps (shifted_names 10) 100 D 0 dist paths = Ok (cm, pm) /\
  entry cm 0 4%Z /\ tour_from g 0 t /\ any_cost g c t 3.
Proof.
  exists tri, [1;1;1]%Z, tri1_D, tri1_dist, tri1_paths. do 2 eexists. exists [0;1;2;0].
  split; [apply call_check; [cbn; lia|cbn; tauto|vm_compute; reflexivity|vm_compute; reflexivity]|].
  split; [apply costs_check; reflexivity|]. split; [vm_compute; reflexivity|]. split; [unfold entry; cbn; tauto|]. split; [check|].
  change 3%Z with (1 + (1 + (1 + 0)))%Z. apply (ac_cons _ _ 0 1 [2;0] 0); [left; reflexivity|reflexivity|].
  apply (ac_cons _ _ 1 2 [0] 1); [left; reflexivity|reflexivity|]. apply (ac_cons _ _ 2 0 [] 2); [right; reflexivity|reflexivity|constructor].
Qed.
Print Assumptions C59_root_bound_refuted.

Definition dp_only : solve_flags := mkFlags true false false true true.

Theorem C59_solver_cuts_off_refuted : exists g c p quota D dist paths cm pm d m st,
  split_call g c [0;1;2] (fun v => 10 + v) (fun v => v) D (shifted_names 10) 0 dist paths /\
  disjoint_maps (shifted_names 10) 100 D 0 dist paths = Ok (cm, pm) /\ prizes_given g cm d /\
  (exists t, heur_of g 0 [0;1;2] t /\ exists z, optimal_tour g c p quota 0 t z) /\
  solve_start pick_first dp_only g [0;1;2] c p quota 0 d = Ok (m, st) /\
  let entries := map (fun e => (e, e)) (seq 0 (length (ge (i_graph m)))) in
  let acc := accepted dp_only (i_graph m) p quota 0 entries in
  scip_run m acc [] [] /\ scip_finished m acc (bc_rows st) (bc_rows st) [] /\
  solve_finish dp_only no_flow m st p quota 0 entries [] [] = Ok (st, []).
Proof.
  destruct (solve_start pick_first dp_only tri [0;1;2] [1;1;1]%Z [1;1;1]%Z 3 0 [4;3;3]%Z) as [[m st]|e|u|] eqn:E;
    [|exfalso; vm_compute in E; discriminate..].
  exists tri, [1;1;1]%Z, [1;1;1]%Z, 3%Z, tri1_D, tri1_dist, tri1_paths. do 2 eexists. exists [4;3;3]%Z, m, st.
  split; [apply call_check; [cbn; lia|cbn; tauto|vm_compute; reflexivity|vm_compute; reflexivity]|].
  split; [vm_compute; reflexivity|].
  split.
  { split; [reflexivity|]. split.
    - intros v x H. repeat (destruct H as [H|H]; [inversion H; subst; split; [simpl; tauto|reflexivity]|]). destruct H.
    - intros v Hv Hno. cbn in Hv.
      repeat (destruct Hv as [<-|Hv]; [first [reflexivity | exfalso; eapply Hno; simpl; tauto]|]). destruct Hv. }
  split.
  { exists [0;1;2;0]. split; [split; [check|]; exists [0;1;2]; split; [checkI|reflexivity]|]. exists 3%Z. split.
    - split; [check|]. split; [exists 3%Z; split; [check|lia]|check].
    - intros t' z' (T & _ & W). apply (tri_cost t' z' T). apply P_Collapse.walk_cost_any_cost; [|exact W].
      destruct T as (vs & -> & _). discriminate. }
  split; [exact E|]. vm_compute in E. inversion E as [[Em Est]]. clear E. cbn zeta.
  match goal with |- scip_run ?mm (accepted ?f ?g ?p ?q ?r ?en) _ _ /\ scip_finished _ _ (bc_rows ?s) _ _ /\ _ =>
    set (M := mm); set (S0 := s); set (A := accepted f g p q r en) end.
  assert (HN : forall s, A s -> Forall (row_sat s) (i_cons M ++ bc_rows S0) -> False).
  { intros s [[Hd _] _] Hs. cbn [M S0 i_cons bc_rows b_dp b_sp b_sec b_cc opt_rows ch_rows app] in Hs.
    repeat (apply Forall_cons_iff in Hs as [[?R1 ?R2] Hs]). clear Hs.
    repeat match goal with
      | K : forall a, l_lhs _ = Some a -> _ |- _ => cbn -[Z.mul Z.add Z.le] in K
      | K : forall b, l_rhs _ = Some b -> _ |- _ => cbn -[Z.mul Z.add Z.le] in K end.
    repeat match goal with
      | K : forall a, Some _ = Some a -> _ |- _ => specialize (K _ eq_refl)
      | K : forall a, None = Some a -> _ |- _ => clear K end.
    cbn -[Z.mul Z.add Z.le] in *. lia. }
  split; [|split].
  - split; [constructor| |]; intros ? ? [].
  - split; intros s; [intros _|]; intros HA Hs; destruct (HN s HA Hs).
  - reflexivity.
Qed.
Print Assumptions C59_solver_cuts_off_refuted.

(** ** starting tours that are not simple *)

(** Two triangles 0, 1, 2 and 0, 3, 4 at the root 0. No pair collects the quota 3; the tour of
    largest prize in the map is that of the root, which visits it in between. *)
Definition bow : graph := mkGraph 5 [(0,1);(0,2);(0,3);(0,4);(1,2);(3,4)].
Definition bow_c : list Z := [1;5;1;5;1;1]%Z.
Definition bow_D : dgraph := [(10, [(0, 0%Z)]); (11, [(1, 0%Z)]); (12, [(2, 0%Z)]); (13, [(3, 0%Z)]); (14,
   [(4, 0%Z)]); (0, [(11, 1%Z); (12, 5%Z); (13, 1%Z); (14, 5%Z)]); (1, [(10, 1%Z); (12, 1%Z)]); (2, [(10,
   5%Z); (11, 1%Z)]); (3, [(10, 1%Z); (14, 1%Z)]); (4, [(10, 5%Z); (13, 1%Z)])].
Definition bow_dist : list (nat * Z) := [(0, 0%Z); (11, 1%Z); (1, 1%Z); (13, 1%Z); (3, 1%Z); (10, 2%Z); (12,
   2%Z); (2, 2%Z); (14, 2%Z); (4, 2%Z)].
Definition bow_paths : list (nat * list nat) := [(0, [0]); (11, [0; 11]); (12, [0; 11; 1; 12]); (13, [0; 13]);
   (14, [0; 13; 3; 14]); (1, [0; 11; 1]); (10, [0; 11; 1; 10]); (3, [0; 13; 3]); (2, [0; 11; 1; 12; 2]); (4,
   [0; 13; 3; 14; 4])].
Definition bow_prize : list (nat * Z) := [(0, 0%Z); (1, 1%Z); (2, 0%Z); (3, 1%Z); (4, 0%Z)].

Theorem C59_start_not_simple_refuted : exists g c prize quota D dist paths cm pm tour t z,
  split_call g c [0;1;2;3;4] (fun v => 10 + v) (fun v => v) D (shifted_names 10) 0 dist paths /\ costs_from c 1 /\
  disjoint_maps (shifted_names 10) 100 D 0 dist paths = Ok (cm, pm) /\
  tour_from g 0 t /\ prizes_total prize (removelast t) z /\ (0 < z)%Z /\
  suurballes_tour_initialization prize quota cm pm = Ok tour /\
  ~ exists m, 1 <= m /\ closed_tour g 0 m tour.
Proof.
  exists bow, bow_c, bow_prize, 3%Z, bow_D, bow_dist, bow_paths. do 2 eexists. exists [0;3;0;1;0], [0;1;2;0], 1%Z.
  split; [apply call_check; [cbn; lia|cbn; tauto|vm_compute; reflexivity|vm_compute; reflexivity]|].
  split; [apply costs_check; reflexivity|]. split; [vm_compute; reflexivity|]. split; [check|].
  split; [change 1%Z with (0 + (1 + (0 + 0)))%Z; repeat (constructor; [cbn; tauto|]); constructor|].
  split; [lia|]. split; [vm_compute; reflexivity|].
  intros (m & _ & vs & E & N & _). destruct vs as [|a [|b vs]]; [discriminate|discriminate|]. cbn in E. assert (b = 0) by congruence. subst b.
  inversion N as [|? ? NI _]; subst. apply NI. right. left. reflexivity.
Qed.
Print Assumptions C59_start_not_simple_refuted.

(** The heuristic then returns this walk as its answer: with the prizes of 1 and 3 it reaches
    the quota 2, which no tour from the root does. *)
Definition bow_W : pygraph := mkPy [(0, [1;2;3;4]); (1, [0;2]); (2, [0;1]); (3, [0;4]); (4, [0;3])]
  (attrs_of [(0,1,1%Z);(0,2,5%Z);(0,3,1%Z);(0,4,5%Z);(1,2,1%Z);(3,4,1%Z)]) (dget bow_prize).

Theorem C59_heuristic_not_simple_refuted : exists W G c p quota D dist paths cm pm tour,
  Spec_PyWrap.same_graph (pg_adj W) (pg_cost W) (pg_prize W) G c p /\
  split_call G c [0;1;2;3;4] (fun v => 10 + v) (fun v => v) D (shifted_names 10) 0 dist paths /\ costs_from c 1 /\
  disjoint_maps (shifted_names 10) 100 D 0 dist paths = Ok (cm, pm) /\
  run_heuristic pick_first (fun l => l) W quota 0 SuurballesPathExtensionCollapse cm pm None None None =
    Ok (edge_list_from_walk tour) /\
  tour <> [] /\ ~ exists m, 1 <= m /\ closed_tour G 0 m tour.
Proof.
  exists bow_W, bow, bow_c, [0;1;0;1;0]%Z, 2%Z, bow_D, bow_dist, bow_paths. do 2 eexists. exists [0;3;0;1;0].
  split.
  { change bow with (view_graph 5 bow_W). change bow_c with (view_costs bow_W). change [0;1;0;1;0]%Z with (view_prizes 5 bow_W).
    apply view_ok; [apply undirectedb_ok; vm_compute; reflexivity|]. intros v V. cbn in V. lia. }
  split; [apply call_check; [cbn; lia|cbn; tauto|vm_compute; reflexivity|vm_compute; reflexivity]|].
  split; [apply costs_check; reflexivity|]. split; [vm_compute; reflexivity|]. split; [vm_compute; reflexivity|]. split; [discriminate|].
  intros (m & _ & vs & E & N & _). destruct vs as [|a [|b vs]]; [discriminate|discriminate|]. cbn in E. assert (b = 0) by congruence. subst b.
  inversion N as [|? ? NI _]; subst. apply NI. right. left. reflexivity.
Qed.
Print Assumptions C59_heuristic_not_simple_refuted.
