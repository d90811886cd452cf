(** * Properties_Solve: the theorems for C57 (branch and cut, src/algorithms.cpp and its
    binding) *)
From Coq Require Import Permutation.
From Verif Require Import Base Graph Spec Spec_Cycle M_Walk M_Graph M_Dijkstra M_Solution M_ILP M_Subtour
  M_CycleCover M_CostCover M_Renaming M_MaxFlow M_Solve Spec_ILP Spec_Cover Spec_Flow Spec_Rename Spec_Solve.
From Verif Require Import P_Base P_Dijkstra P_Check P_CheckILP P_Solve P_SolveBind P_SolveCount.
From Verif Require Import Properties_Renaming.
Open Scope nat_scope.

(** A call with a simple graph, non-negative costs and prizes, a starting tour or none, and
    sound distance bounds, builds the model and installs the handlers.  Whatever SCIP then
    does, as long as its solutions are points that the handlers accept: every callback
    returns normally, and the result is the edge list of a tour through the root that meets the
    quota, or it is empty and there is no solution.  If SCIP was not stopped (and the starting
    tour, if any, meets the quota) the tour has the least cost of all such tours, and an empty
    result says that there is none: none of the cuts removes a better tour. *)
Theorem C57_optimal : forall tb fl mf g c p C P quota root heur dist,
  good_pick tb -> (forall d s t, length (snd (mf d s t)) = length (n_arcs d)) ->
  graph_ok g -> no_parallel g -> loop_free g ->
  costs_within g c 0 C -> (0 <= C)%Z -> (2 * (Z.of_nat (gn g) * C) < int_max)%Z ->
  prizes_within g p 0 P -> (Z.of_nat (gn g) * P <= int_max)%Z ->
  (- int_max <= quota <= int_max)%Z -> root < gn g ->
  (Z.of_nat (length (ge g) + gn g) <= 1000000000)%Z ->
  (heur = [] \/ exists t, heur_of g root heur t) ->
  (fl_disjoint_paths fl = true -> length dist = gn g /\ tour_bounds g c root dist) ->
  (fl_shortest_path fl = true -> forall v, v < gn g -> exists w, is_walk g w /\ leads root v w) ->
  exists m st, solve_start tb fl g heur c p quota root dist = Ok (m, st) /\ i_graph m = looped g /\
    forall entries cbs sols, var_entries (i_graph m) entries ->
      scip_run m (accepted fl (i_graph m) p quota root entries) cbs sols ->
      exists st' r, solve tb fl mf g heur c p quota root dist entries cbs sols = Ok (st', r) /\
        ((sols = [] /\ r = []) \/
         exists t z, feasible_tour g c p quota root t z /\ edges_of_tour g t r) /\
        ((forall t, heur_of g root heur t -> meets_quota p quota t) ->
         scip_finished m (accepted fl (i_graph m) p quota root entries) (bc_rows st) (bc_rows st') sols ->
         (exists t z, optimal_tour g c p quota root t z /\ edges_of_tour g t r) \/
         (r = [] /\ forall t z, ~ feasible_tour g c p quota root t z)).
Proof. exact solve_call. Qed.
Print Assumptions C57_optimal.

(** The same of the binding, in the labels of the caller: [cd], [pd] and [dd] are the
    dictionaries of costs, prizes and distance bounds. *)
Theorem C57_binding_optimal : forall tb fl mf G cd pd dd c p d n C P quota root heur,
  good_pick tb -> (forall d s t, length (snd (mf d s t)) = length (n_arcs d)) ->
  call_with G cd pd c p n -> prizes_given G dd d -> no_parallel G -> loop_free G ->
  costs_within G c 0 C -> (0 <= C)%Z -> (2 * (Z.of_nat n * C) < int_max)%Z ->
  prizes_within G p 0 P -> (Z.of_nat n * P <= int_max)%Z -> (- int_max <= quota <= int_max)%Z ->
  In root (ends (ge G)) -> (Z.of_nat (length (ge G) + n) <= 1000000000)%Z ->
  (heur = [] \/ exists T, heur_pairs G root heur T) ->
  (fl_disjoint_paths fl = true -> tour_bounds G c root d) ->
  (fl_shortest_path fl = true -> forall v, In v (ends (ge G)) -> exists w, is_walk G w /\ leads root v w) ->
  exists bm m st q r, py_solve_start tb fl (ge G) heur cd pd quota root dd = Ok (bm, m, st, q, r) /\
    forall entries cbs sols, var_entries (i_graph m) entries ->
      scip_run m (accepted fl (i_graph m) q quota r entries) cbs sols ->
      exists st' out, py_solve tb fl mf (ge G) heur cd pd quota root dd entries cbs sols = Ok (st', out) /\
        ((sols = [] /\ out = []) \/
         exists T z, feasible_tour G c p quota root T z /\ edges_of_tour G T out) /\
        ((forall T, heur_pairs G root heur T -> meets_quota p quota T) ->
         scip_finished m (accepted fl (i_graph m) q quota r entries) (bc_rows st) (bc_rows st') sols ->
         (exists T z, optimal_tour G c p quota root T z /\ edges_of_tour G T out) \/
         (out = [] /\ forall T z, ~ feasible_tour G c p quota root T z)).
Proof. exact py_solve_whole. Qed.
Print Assumptions C57_binding_optimal.

(** The numbers of constraints that are reported: at least the subtour elimination rows that SCIP
    took (those it calls not efficacious are counted but not added), exactly these if SCIP took all,
    none for a separator that is off, and exactly the cycle cover rows. *)
Theorem C57_counts : forall tb fl mf g heur c p quota root dist entries cbs sols st r,
  solve tb fl mf g heur c p quota root dist entries cbs sols = Ok (st, r) ->
  length (M_Solve.b_sec st) <= M_Solve.b_nd st + M_Solve.b_nf st /\
  ((forall lib s row, In (SepaSubtour lib s) cbs -> efficacious lib row = true) -> length (M_Solve.b_sec st) = M_Solve.b_nd st + M_Solve.b_nf st) /\
  (fl_sec_disjoint fl = false -> M_Solve.b_nd st = 0) /\ (fl_sec_maxflow fl = false -> M_Solve.b_nf st = 0) /\
  M_Solve.b_ncc st = Z.of_nat (length (M_Solve.b_cc st)) /\ (fl_cycle_cover fl = false -> M_Solve.b_cc st = []).
Proof. exact solve_counts. Qed.
Print Assumptions C57_counts.

(** ** cases *)
Definition tri : graph := mkGraph 3 [(0,1);(1,2);(0,2)].
Definition all_on : solve_flags := mkFlags true true true true true.
Definition sp_on : solve_flags := mkFlags false true true true true.
Definition no_flow : flow_lib := fun d _ _ => (0%Z, repeat 0%Z (length (n_arcs d))).

Lemma tri_cost t z : tour_from tri 0 t -> any_cost tri [1;1;1]%Z t z -> (3 <= z)%Z.
Proof.
  intros (vs & -> & _ & Hl & _) Hz. destruct (any_cost_trail _ _ _ _ Hz) as (es & Htr & ->).
  pose proof (trail_lt _ _ _ Htr) as Hlt. apply P_Cycle.trail_length in Htr. cbn [length] in Htr.
  rewrite app_length in Htr. cbn [length] in Htr. cbn in Hlt.
  assert (E : P_ILP.zsum (fun e => nth e [1;1;1]%Z 0%Z) es = Z.of_nat (length es)).
  { clear - Hlt. induction Hlt as [|e es He _ IH]; [reflexivity|].
    change (P_ILP.zsum (fun e => nth e [1;1;1]%Z 0%Z) (e :: es))
      with (nth e [1;1;1]%Z 0%Z + P_ILP.zsum (fun e => nth e [1;1;1]%Z 0%Z) es)%Z. rewrite IH.
    destruct e as [|[|[|e]]]; cbn [nth length]; lia. }
  rewrite E. lia.
Qed.

(** A call that meets all hypotheses, with every handler on. *)
Example C57_case :
  good_pick pick_first /\ (forall d s t, length (snd (no_flow d s t)) = length (n_arcs d)) /\
  graph_ok tri /\ no_parallel tri /\ loop_free tri /\ costs_within tri [1;1;1]%Z 0 1 /\
  prizes_within tri [1;1;1]%Z 0 1 /\ (exists t, heur_of tri 0 [0;1;2] t) /\
  (forall t, heur_of tri 0 [0;1;2] t -> meets_quota [1;1;1]%Z 3 t) /\
  tour_bounds tri [1;1;1]%Z 0 [0;3;3]%Z /\
  (forall v, v < gn tri -> exists w, is_walk tri w /\ leads 0 v w).
Proof.
  split; [exact pick_first_good|]. split; [intros; cbn; apply repeat_length|].
  split; [check|]. split; [checkI|]. split; [checkI|].
  split; [check|]. split; [check|]. split.
  { exists [0;1;2;0]. split; [check|]. exists [0;1;2]. split; [checkI|reflexivity]. }
  split.
  { intros t ((vs & -> & Hn & Hl & _ & Hv) & _). exists 3%Z. split; [|lia]. unfold tour_prize.
    assert (E : removelast (0 :: vs ++ [0]) = 0 :: vs) by (change (0 :: vs ++ [0]) with ((0 :: vs) ++ [0]); apply removelast_snoc).
    rewrite E. assert (H3 : length (0 :: vs) <= length (seq 0 3)).
    { apply NoDup_incl_length; auto. intros x Hx. apply in_seq. rewrite Forall_forall in Hv.
      assert (x < gn tri) by (apply Hv; cbn in *; rewrite in_app_iff; tauto). cbn in *. lia. }
    cbn [length seq] in H3. destruct vs as [|a [|b [|? ?]]]; cbn [length] in *; try lia.
    apply Forall_cons_iff in Hv as [_ Hv]. apply Forall_cons_iff in Hv as [Ha Hv]. apply Forall_cons_iff in Hv as [Hb _].
    cbn in Ha, Hb. change 3%Z with (1 + (1 + (1 + 0)))%Z. repeat (constructor; auto).
    - destruct a as [|[|[|a]]]; try reflexivity; lia.
    - destruct b as [|[|[|b]]]; try reflexivity; lia. }
  split.
  { intros t z v d Ht Hz Hv Hd. pose proof (tri_cost t z Ht Hz).
    destruct v as [|[|[|v]]]; cbn in Hd; try (inversion Hd; lia). destruct v; discriminate. }
  intros v Hv. cbn in Hv. destruct v as [|[|[|v]]]; [exists [0]|exists [0;1]|exists [0;2]|lia]; split; try check; split; reflexivity.
Qed.

(** A run that meets the assumptions about SCIP: the starting tour is accepted, the event is
    raised with its cost, and the search ends; the result is the triangle. *)
Example C57_run_case : exists m st st' h,
  solve_start pick_first all_on tri [0;1;2] [1;1;1]%Z [1;1;1]%Z 3 0 [0;3;3]%Z = Ok (m, st) /\
  let entries := map (fun e => (e, e)) (seq 0 6) in
  var_entries (i_graph m) entries /\ i_heur m = Some h /\
  scip_run m (accepted all_on (i_graph m) [1;1;1]%Z 3 0 entries) [BestSolFound 3 1] [h] /\
  solve_finish all_on no_flow m st [1;1;1]%Z 3 0 entries [BestSolFound 3 1] [h]
    = Ok (st', [(0,1);(1,2);(0,2)]) /\
  scip_finished m (accepted all_on (i_graph m) [1;1;1]%Z 3 0 entries) (bc_rows st) (bc_rows st') [h].
Proof.
  destruct (solve_start pick_first all_on tri [0;1;2] [1;1;1]%Z [1;1;1]%Z 3 0 [0;3;3]%Z) as [[m st]|e|u|] eqn:E;
    [|exfalso; vm_compute in E; discriminate..].
  vm_compute in E. inversion E as [[Em Est]]. clear E.
  eexists. eexists. eexists. eexists. split; [reflexivity|]. cbn zeta.
  split; [cbn; apply Permutation_refl|]. split; [reflexivity|].
  match goal with |- scip_run ?m (accepted _ _ _ _ _ _) _ [?h] /\ _ => set (M := m); set (H := h) end.
  assert (HA : accepted all_on (i_graph M) [1;1;1]%Z 3 0 (map (fun e => (e, e)) (seq 0 6)) H).
  { split; [|split; [vm_compute; reflexivity|intros _; vm_compute; reflexivity]].
    split; [reflexivity|]. intros e He. change (e < 6) in He.
    destruct e as [|[|[|[|[|[|e]]]]]]; try (right; reflexivity); lia. }
  assert (HR : Forall (row_sat H) (i_cons M)).
  { repeat (constructor; [split; intros x Hx; inversion Hx; subst; vm_compute; discriminate|]). constructor. }
  split; [|split].
  - split.
    + constructor; auto.
    + intros n d [Hc|[]]. inversion Hc; subst. split; [lia|]. exists H, H. split; auto. split; auto.
      split; [reflexivity|]. split; [reflexivity|]. unfold no_worse. lia.
    + intros lib s [Hc|[]]. discriminate.
  - vm_compute. reflexivity.
  - split.
    + intros h Eh _ _. exists H. split; auto. assert (h = H) by (inversion Eh; reflexivity). subst h. unfold no_worse. lia.
    + intros s [[Hd _] _] Hs. exists H. split; auto. unfold no_worse.
      apply Forall_app in Hs as [Hs _]. cbn [M i_cons] in Hs.
      repeat (apply Forall_cons_iff in Hs as [[?R1 ?R2] Hs]). clear Hs.
      repeat match goal with
        | K : forall a, l_lhs _ = Some a -> _ |- _ => cbn -[Z.mul Z.add Z.le] in K
        | K : forall b, l_rhs _ = Some b -> _ |- _ => cbn -[Z.mul Z.add Z.le] in K end.
      repeat match goal with
        | K : forall a, Some _ = Some a -> _ |- _ => specialize (K _ eq_refl)
        | K : forall a, None = Some a -> _ |- _ => clear K end.
      cbn -[Z.mul Z.add Z.le] in *. lia.
Qed.

(** The counts of a call with two triangles in the support: SCIP took none of the three rows of the
    subtour handler that are counted, or all three, and the row of the cycle cover handler. *)
Definition two_tri : graph := mkGraph 6 [(0,1);(1,2);(0,2);(3,4);(4,5);(3,5);(2,3)].
Definition no_rows : scip_lib := mkLib (fun _ => false) (fun _ => false).
Definition every_row : scip_lib := mkLib (fun _ => true) (fun _ => false).
Definition two_tours : sol := mkSol 1 (fun e => if Nat.eqb e 6 then 0 else 1)%Z.
Definition counts (r : res (bc * list (nat * nat))) : option (nat * nat * nat * Z * nat) :=
  match r with Ok (st, _) => Some (length (M_Solve.b_sec st), M_Solve.b_nd st, M_Solve.b_nf st, M_Solve.b_ncc st, length (M_Solve.b_cc st)) | _ => None end.
Example C57_counts_case :
  let run lib := counts (solve pick_first (mkFlags false false true true false) no_flow two_tri [] [1;1;1;1;1;1;1]%Z [1;1;1;1;1;1]%Z 5 0 []
    (map (fun e => (e, e)) (seq 0 13)) [SepaSubtour lib two_tours; SepaCycleCover every_row two_tours] []) in
  run no_rows = Some (0, 3, 0, 1%Z, 1) /\ run every_row = Some (3, 3, 0, 1%Z, 1).
Proof. vm_compute. split; reflexivity. Qed.

(** A call of the binding that meets all hypotheses (labels 7, 3, 9, 4, 2; the starting tour given
    as pairs in any direction), and the result of a run that ends with the starting tour. *)
Example C57_binding_case : call_with ren_G ren_cd ren_pd ren_c ren_p 5 /\
  prizes_given ren_G [(7,0%Z);(3,2%Z)] [0;0;0;2;0;0;0;0;0;0]%Z /\ no_parallel ren_G /\ loop_free ren_G /\
  costs_within ren_G ren_c 0 2 /\ prizes_within ren_G ren_p 0 6 /\ In 7 (ends (ge ren_G)) /\
  heur_pairs ren_G 7 [(3,7);(9,3);(7,9)] [7;3;9;7] /\
  (forall v, In v (ends (ge ren_G)) -> exists w, is_walk ren_G w /\ leads 7 v w) /\
  exists bm m st q r h,
    py_solve_start pick_first sp_on (ge ren_G) [(3,7);(9,3);(7,9)] ren_cd ren_pd 3 7 [(7,0%Z);(3,2%Z)] = Ok (bm, m, st, q, r) /\
    i_heur m = Some h /\ exists st',
    py_solve pick_first sp_on no_flow (ge ren_G) [(3,7);(9,3);(7,9)] ren_cd ren_pd 3 7 [(7,0%Z);(3,2%Z)]
      (map (fun e => (e, e)) (seq 0 12)) [BestSolFound 4 1] [h] = Ok (st', [(7,3);(3,9);(9,7)]).
Proof.
  split; [exact ren_call|]. split.
  { split; [reflexivity|]. split.
    - intros v x H. repeat (destruct H as [H|H]; [inversion H; subst; split; [simpl; tauto|reflexivity]|]). destruct H.
    - intros v Hv Hno. cbn in Hv.
      repeat (destruct Hv as [<-|Hv]; [first [reflexivity | exfalso; eapply Hno; simpl; tauto]|]). destruct Hv. }
  split; [checkI|]. split; [checkI|]. split; [check|]. split; [check|]. split; [simpl; tauto|]. split.
  { split; [check|]. exists [0;1;2], [0;1;2]. split; [checkI|]. split; [reflexivity|].
    repeat (constructor; [apply joinb_spec; vm_compute; reflexivity|]). constructor. }
  split.
  { intros v Hv. cbn in Hv.
    repeat (destruct Hv as [<-|Hv]; [first
      [ (exists [7]; split; [check|split; reflexivity]) | (exists [7;3]; split; [check|split; reflexivity])
      | (exists [7;9]; split; [check|split; reflexivity]) | (exists [7;4]; split; [check|split; reflexivity])
      | (exists [7;2]; split; [check|split; reflexivity])]|]). destruct Hv. }
  do 6 eexists. split; [vm_compute; reflexivity|]. split; [reflexivity|]. eexists. vm_compute. reflexivity.
Qed.

(** A starting tour below the quota: SCIP does not accept it, but its cost is still used as the
    upper bound of the cost cover inequalities, which then forbid the only vertex that can
    meet the quota.  The search is complete and finds nothing although there is a feasible
    tour (a known graph, no error, all other hypotheses hold). *)
Definition far : graph := mkGraph 4 [(0,1);(1,2);(0,2);(0,3);(1,3);(2,3)].
Definition sp_only : solve_flags := mkFlags false true false true true.

Theorem C57_start_below_quota_refuted : exists g c p quota root heur fl m st,
  graph_ok g /\ no_parallel g /\ loop_free g /\ costs_within g c 0 5 /\ prizes_within g p 0 1 /\
  (exists t, heur_of g root heur t) /\
  solve_start pick_first fl g heur c p quota root [] = Ok (m, st) /\
  let entries := map (fun e => (e, e)) (seq 0 (length (ge (i_graph m)))) in
  let acc := accepted fl (i_graph m) p quota root entries in
  scip_run m acc [] [] /\ scip_finished m acc (bc_rows st) (bc_rows st) [] /\
  solve_finish fl no_flow m st p quota root entries [] [] = Ok (st, []) /\
  exists t z, feasible_tour g c p quota root t z.
Proof.
  destruct (solve_start pick_first sp_only far [0;1;2] [1;1;1;5;5;5]%Z [0;0;0;1]%Z 1 0 []) as [[m st]|e|u|] eqn:E;
    [|exfalso; vm_compute in E; discriminate..].
  exists far, [1;1;1;5;5;5]%Z, [0;0;0;1]%Z, 1%Z, 0, [0;1;2], sp_only, m, st.
  split; [check|]. split; [checkI|]. split; [checkI|]. split; [check|]. split; [check|].
  split; [exists [0;1;2;0]; split; [check|]; exists [0;1;2]; split; [checkI|reflexivity]|].
  split; [exact E|]. vm_compute in E. inversion E as [[Em Est]]. clear E. cbn zeta.
  match goal with |- scip_run ?mm (accepted ?f ?g ?p ?q ?r ?en) _ _ /\ scip_finished _ _ (bc_rows ?s) _ _ /\ _ =>
    set (M := mm); set (S0 := s); set (A := accepted f g p q r en) end.
  assert (HN : forall s, A s -> Forall (row_sat s) (i_cons M ++ bc_rows S0) -> False).
  { intros s [[Hd _] _] Hs. cbn [M S0 i_cons bc_rows b_dp b_sp b_sec b_cc opt_rows ch_rows app] in Hs.
    repeat (apply Forall_cons_iff in Hs as [[?R1 ?R2] Hs]). clear Hs.
    repeat match goal with
      | K : forall a, l_lhs _ = Some a -> _ |- _ => cbn -[Z.mul Z.add Z.le] in K
      | K : forall b, l_rhs _ = Some b -> _ |- _ => cbn -[Z.mul Z.add Z.le] in K end.
    repeat match goal with
      | K : forall a, Some _ = Some a -> _ |- _ => specialize (K _ eq_refl)
      | K : forall a, None = Some a -> _ |- _ => clear K end.
    cbn -[Z.mul Z.add Z.le] in *. lia. }
  split; [|split; [|split]].
  - split; [constructor| |]; intros ? ? [].
  - split; intros s; [intros _|]; intros HA Hs; destruct (HN s HA Hs).
  - reflexivity.
  - exists [0;1;3;0], 11%Z. split; [check|]. split; [exists 1%Z; split; [check|lia]|check].
Qed.
Print Assumptions C57_start_below_quota_refuted.

(** The other two solvers of algorithms.cpp ask only whether the status is infeasible: stopped
    before the first solution they return the edges of the current LP solution, which need not
    be a tour, or read through a null pointer. *)
Theorem C57_basic_no_solution_refuted : exists g c p quota root m s r,
  graph_ok g /\ no_parallel g /\ loop_free g /\ model_pctsp g [] c p quota root = Ok m /\
  let entries := map (fun e => (e, e)) (seq 0 (length (ge (i_graph m)))) in
  Forall (row_sat s) (i_cons m) /\
  basic_finish m false entries [] (Some s) = Ok r /\ r <> [] /\
  (forall t, tour_from g root t -> ~ edges_of_tour g t r) /\
  basic_finish m false entries [] None = UB NullDeref.
Proof.
  destruct (model_pctsp tri [] [1;1;1]%Z [1;1;1]%Z 2 0) as [m|e|u|] eqn:E; [|exfalso; vm_compute in E; discriminate..].
  exists tri, [1;1;1]%Z, [1;1;1]%Z, 2%Z, 0, m, (mkSol 2 (fun e => nth e [2;0;2;2;1;1]%Z 0%Z)), [(0,1);(0,2)].
  split; [check|]. split; [checkI|]. split; [checkI|]. split; [exact E|].
  vm_compute in E. inversion E as [Em]. clear E. cbn zeta.
  split; [apply rowsb_spec; vm_compute; reflexivity|]. split; [vm_compute; reflexivity|]. split; [discriminate|].
  split; [|reflexivity]. intros t (vs & -> & _ & Hl & _) (es & es' & Htr & HP & HF).
  apply P_Base.Forall2_length_eq in HF. apply P_Cycle.trail_length in Htr. rewrite <- (Permutation_length HP) in Htr.
  cbn [length] in *. rewrite app_length in Htr. cbn [length] in Htr. lia.
Qed.
Print Assumptions C57_basic_no_solution_refuted.
