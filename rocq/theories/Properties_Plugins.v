(** * Properties_Plugins: the theorems for C72 (the handlers given to SCIP) *)
From Coq Require Import String Permutation Sorting.Sorted.
From Verif Require Import Base Graph Spec Spec_Cycle M_Walk M_Graph M_Dijkstra M_Solution M_ILP M_Subtour M_CycleCover M_CostCover
  M_MaxFlow M_Handler M_Solve M_Plugins Spec_ILP Spec_Handler Spec_Solve Spec_Plugins.
From Verif Require Import P_Base P_Dijkstra P_Check P_CheckILP P_CheckFlow P_Model P_Handler P_Plugins P_Plugins2 P_Plugins3.
From Verif Require Import Properties_Cuts.
Open Scope string_scope.
Open Scope list_scope.
Open Scope nat_scope.

(** A triangle with self loops, its model, options, and a call with the tour round the triangle. *)
Definition plug_g : graph := mkGraph 3 [(0,1);(1,2);(2,0);(0,0);(1,1);(2,2)].
Definition plug_m : ilp := match model_pctsp plug_g [0;1;2] [1;1;1;0;0;0]%Z [1;1;1]%Z 2 0 with
  | Ok m => m | _ => mkIlp plug_g [] [] [] None end.
Definition plug_o (dp sp cc : bool) (tailing : Z) : options := mkOptions (mkFlags dp sp cc true false) tailing 1 true.
Definition plug_defaults : list conshdlr :=
  [mkConshdlr "setppc" 700000 (-700000) (-700000) 0 1 100 (-1) false false true KRows; integral_conshdlr; linear_conshdlr].
Definition plug_install (o : options) (m : ilp) (dist : list Z) (s : scip) : res scip :=
  install pick_first plug_defaults o m [0;1;2] 0 dist s.
(** The two cost cover rows, and all SCIP holds after a first call with the disjoint paths cost cover. *)
Definition plug_row1 : lin := mkLin [(3,1%Z);(4,1%Z)] None (Some 1%Z).
Definition plug_row2 : lin := mkLin [(3,1%Z);(5,1%Z)] None (Some 1%Z).
Definition plug_s : scip := wanted plug_defaults (plug_o true false false 5) plug_m (mkBc (Some (mkCover [0;9;1]%Z 0 1 [plug_row1])) None [] 0 0 [] 0).

(** ** One call *)

(** On a fresh SCIP one call, whatever its options, leaves exactly the handlers, constraints and rows asked for; it fails exactly
    when computing the first cost cover rows does, and in the same way. *)
Theorem C72_fresh : forall tb defaults o m heur root dist, frequency (po_sepafreq o) -> (po_simple o = true \/ good_defaults defaults) ->
  install tb defaults o m heur root dist fresh =
  do b <- solve_setup tb (po_flags o) m heur root dist; Ok (wanted defaults o m b).
Proof. exact fresh_install. Qed.
Print Assumptions C72_fresh.

Example C72_fresh_case : good_defaults plug_defaults /\
  plug_install (plug_o true false false 5) plug_m [0;9;1]%Z fresh = Ok plug_s /\
  plug_install (mkOptions (mkFlags true true true true true) 5 1 false) plug_m [0;9;1]%Z fresh =
    Ok (wanted plug_defaults (mkOptions (mkFlags true true true true true) 5 1 false) plug_m
         (mkBc (Some (mkCover [0;9;1]%Z 0 1 [plug_row1])) (Some (mkCover [0;2;2]%Z 0 0 [])) [] 0 0 [] 0)) /\
  plug_install (plug_o true false false 5) plug_m [0;9]%Z fresh = UB VecOOB.
Proof.
  split; [split; [repeat constructor; cbn; discriminate|split; [cbn; repeat constructor; cbn; intuition discriminate|cbn; intuition discriminate]]|].
  split; [vm_compute; reflexivity|]. split; vm_compute; reflexivity.
Qed.

(** Unless the frequency is one that SCIP takes: then the subtour handler is not included, and the constraint that is added was
    never made. *)
Theorem C72_frequency : forall tb defaults o m heur root dist s, ~ frequency (po_sepafreq o) ->
  ~ In "pctsp_sec_handler" (map c_name (sc_conshdlrs s)) -> (po_simple o = true \/ good_defaults defaults) ->
  install tb defaults o m heur root dist s = UB Uninit.
Proof.
  intros tb defaults o m heur root dist s Hf Hi H. apply install_frequency; [exact Hf|exact Hi|]. unfold good_defaults in H. tauto.
Qed.
Print Assumptions C72_frequency.

Example C72_frequency_case : let o q := mkOptions (mkFlags false false false true false) 5 q true in
  ~ frequency (-2) /\ ~ frequency 65535 /\ ~ In "pctsp_sec_handler" (map c_name (sc_conshdlrs fresh)) /\
  plug_install (o (-2))%Z plug_m [] fresh = UB Uninit /\ plug_install (o 65535)%Z plug_m [] fresh = UB Uninit /\
  (exists s, plug_install (o 0)%Z plug_m [] fresh = Ok s) /\ (exists s, plug_install (o (-2))%Z plug_m [] plug_s = Ok s).
Proof.
  unfold frequency. split; [lia|]. split; [lia|]. split; [intros []|]. split; [vm_compute; reflexivity|].
  split; [vm_compute; reflexivity|]. split; eexists; vm_compute; reflexivity.
Qed.

(** The names differ. *)
Theorem C72_distinct : forall defaults o m b, (po_simple o = true \/ good_defaults defaults) ->
  NoDup (map c_name (sc_conshdlrs (wanted defaults o m b))) /\ NoDup (map e_name (sc_evhdlrs (wanted defaults o m b))).
Proof. exact wanted_distinct. Qed.
Print Assumptions C72_distinct.

(** SCIP's copies of the constraints for the transformed problem are like the originals, whatever their
    ten flags are. *)
Theorem C72_transformed : forall o k, (In k (wanted_conss o) \/ List.length (k_flags k) = 10) -> trans_cons k = Ok k.
Proof. intros o k [H|H]; [exact (trans_same o k H)|exact (trans_flags k H)]. Qed.
Print Assumptions C72_transformed.

(** ** Further calls *)

(** A call on a SCIP that was used before: a handler that is there stays as it is, and of those asked for the others come;
    with all of SCIP's plug-ins, those come that stand before the first that is there. *)
Theorem C72_again_handlers : forall tb defaults o m heur root dist s s', Forall in_range defaults -> NoDup (map c_name defaults) ->
  install tb defaults o m heur root dist s = Ok s' ->
  exists l, comes defaults o (sc_conshdlrs s) l /\
    forall name h, named (sc_conshdlrs s') name h <-> named (sc_conshdlrs s ++ l ++ of_this_code o) name h.
Proof. exact again_handlers. Qed.
Print Assumptions C72_again_handlers.

(** The constraints are those of the last call. *)
Theorem C72_again_constraints : forall tb defaults o m heur root dist s s', Forall in_range defaults -> NoDup (map c_name defaults) ->
  install tb defaults o m heur root dist s = Ok s' -> sc_conss s' = wanted_conss o.
Proof. intros. eapply in_conss, any_install; eauto. Qed.
Print Assumptions C72_again_constraints.

(** Event handlers that are there stay, with their distances and what they have counted, whether asked for or not. *)
Theorem C72_again_events : forall tb defaults o m heur root dist s s', Forall in_range defaults -> NoDup (map c_name defaults) ->
  install tb defaults o m heur root dist s = Ok s' ->
  (forall name k, ev_named (sc_evhdlrs s) name k -> exists k', ev_named (sc_evhdlrs s') name k' /\ stays k k') /\
  forall name, In name (map e_name (sc_evhdlrs s')) <-> In name (map e_name (sc_evhdlrs s)) \/
    (fl_disjoint_paths (po_flags o) = true /\ name = "Disjoint paths cost cover") \/
    (fl_shortest_path (po_flags o) = true /\ name = "Shortest path cost cover") \/
    name = "pctsp_node_handler" \/ name = "pctsp_bound_handler".
Proof. exact again_events. Qed.
Print Assumptions C72_again_events.

(** The rows are those of the model and those of the cost cover handlers asked for, made with the distances that these handlers
    were first given. *)
Theorem C72_again_rows : forall tb defaults o m heur root dist s s', Forall in_range defaults -> NoDup (map c_name defaults) ->
  install tb defaults o m heur root dist s = Ok s' ->
  exists ub ds r1 r2, total_cost_edges (i_cost m) heur = Ok ub /\ sc_rows s' = i_cons m ++ r1 ++ r2 /\
    (fl_shortest_path (po_flags o) = true -> shortest_path_distances tb (i_graph m) (i_cost m) (i_cost m) root = Ok ds) /\
    first_rows m root ub s s' (fl_disjoint_paths (po_flags o)) "Disjoint paths cost cover" dist r1 /\
    first_rows m root ub s s' (fl_shortest_path (po_flags o)) "Shortest path cost cover" ds r2.
Proof. intros. eapply in_rows, any_install; eauto. Qed.
Print Assumptions C72_again_rows.

Example C72_again_case :
  let o := plug_o true false true 7 in
  Forall in_range plug_defaults /\ NoDup (map c_name plug_defaults) /\
  match plug_install o plug_m [0;1;9]%Z plug_s with
  | Ok s' => map c_name (sc_conshdlrs s') = ["linear"; "integral"; "knapsack"; "varbound"; "pctsp_sec_handler"; "Cycle cover"] /\
             sc_conss s' = wanted_conss o /\
             map e_name (sc_evhdlrs s') = ["Disjoint paths cost cover"; "pctsp_node_handler"; "pctsp_bound_handler"]
  | _ => False
  end.
Proof.
  cbn zeta. split; [repeat constructor; cbn; discriminate|]. split; [cbn; repeat constructor; cbn; intuition discriminate|].
  vm_compute. auto.
Qed.

(** One expects the distances of the last call to be used: those of the first are. *)
Theorem C72_distances_refuted : exists s s' o,
  plug_install (plug_o true false false 5) plug_m [0;9;1]%Z fresh = Ok s /\
  plug_install (plug_o true false false 5) plug_m [0;1;9]%Z s = Ok s' /\
  ev_named (sc_evhdlrs s') "Disjoint paths cost cover" (ECover o) /\ co_dist o = [0;9;1]%Z /\
  sc_rows s' = i_cons plug_m ++ [plug_row1] /\
  plug_install (plug_o true false false 5) plug_m [0;1;9]%Z fresh = Ok (wanted plug_defaults (plug_o true false false 5) plug_m
    (mkBc (Some (mkCover [0;1;9]%Z 0 1 [plug_row2])) None [] 0 0 [] 0)).
Proof.
  exists plug_s, plug_s, (mkCoverObj [0;9;1]%Z 0 1). split; [vm_compute; reflexivity|]. split; [vm_compute; reflexivity|].
  split; [eexists [], _; split; [reflexivity|intros []]|]. split; [reflexivity|]. split; vm_compute; reflexivity.
Qed.
Print Assumptions C72_distances_refuted.

(** With a larger graph these distances are read past their end. *)
Theorem C72_larger_graph_refuted : exists m, model_pctsp cut_g [0;1;2] [1;1;1;1;1;1;1;1;0;0;0;0;0;0]%Z cut_p 2 0 = Ok m /\
  (exists s, plug_install (plug_o true false false 5) m [0;1;1;9;1;1]%Z fresh = Ok s) /\
  plug_install (plug_o true false false 5) m [0;1;1;9;1;1]%Z plug_s = UB VecOOB.
Proof.
  destruct (model_pctsp cut_g [0;1;2] [1;1;1;1;1;1;1;1;0;0;0;0;0;0]%Z cut_p 2 0) as [m| | |] eqn:E;
    try (exfalso; vm_compute in E; discriminate).
  exists m. split; [reflexivity|]. split.
  - destruct (plug_install (plug_o true false false 5) m [0;1;1;9;1;1]%Z fresh) as [s| | |] eqn:E2; [eauto|..];
      exfalso; vm_compute in E; injection E as <-; vm_compute in E2; discriminate.
  - vm_compute in E. injection E as <-. vm_compute. reflexivity.
Qed.
Print Assumptions C72_larger_graph_refuted.

(** One expects a handler that is switched off to do nothing: it goes on adding rows when there is a better solution. *)
Theorem C72_switched_off_refuted : exists s lv, plug_install (plug_o false false false 5) plug_m [] plug_s = Ok s /\
  sc_rows s = i_cons plug_m /\
  run_phases plug_g (var_map plug_g) 0 (mkLive s [] []) (phases_of [Solve [BestSol 3 1]]) = Ok (lv, Okay) /\
  sc_rows (lv_scip lv) = i_cons plug_m ++ [plug_row1] /\
  exists s0 lv0, plug_install (plug_o false false false 5) plug_m [] fresh = Ok s0 /\
    run_phases plug_g (var_map plug_g) 0 (mkLive s0 [] []) (phases_of [Solve [BestSol 3 1]]) = Ok (lv0, Okay) /\
    sc_rows (lv_scip lv0) = i_cons plug_m.
Proof.
  eexists. eexists. split; [vm_compute; reflexivity|]. split; [reflexivity|]. split; [vm_compute; reflexivity|]. split; [reflexivity|].
  eexists. eexists. split; [vm_compute; reflexivity|]. split; [vm_compute; reflexivity|]. reflexivity.
Qed.
Print Assumptions C72_switched_off_refuted.

(** One expects the settings of the last call for the subtour handler: those of the first stay. *)
Theorem C72_settings_refuted : exists s h, plug_install (mkOptions (mkFlags false false false false true) 7 3 true) plug_m [] plug_s = Ok s /\
  named (sc_conshdlrs s) "pctsp_sec_handler" h /\ c_kind h = KSec true false 5 /\ c_sepafreq h = 1%Z.
Proof.
  eexists. exists (sec_conshdlr true false 5 1). split; [vm_compute; reflexivity|]. split; [|split; reflexivity].
  eexists [_;_;_;_], _. split; [reflexivity|]. split; [reflexivity|]. cbn. intuition discriminate.
Qed.
Print Assumptions C72_settings_refuted.

(** One expects all of SCIP's plug-ins after a call that asks for them: the first that is there stops the rest. *)
Theorem C72_defaults_refuted : exists o s, po_simple o = false /\
  install pick_first [integral_conshdlr; mkConshdlr "setppc" 700000 (-700000) (-700000) 0 1 100 (-1) false false true KRows] o plug_m
    [0;1;2] 0 [] plug_s = Ok s /\ ~ In "setppc" (map c_name (sc_conshdlrs s)).
Proof.
  exists (mkOptions (mkFlags false false false true false) 5 1 false). eexists. split; [reflexivity|]. split; [vm_compute; reflexivity|].
  cbn. intuition discriminate.
Qed.
Print Assumptions C72_defaults_refuted.

(** ** Events *)

(** Over any number of solves, with events between them too: every handler is told of exactly the events during solves that it
    wants, once and in order; nobody is left over; each cost cover handler has done its work for the upper bounds of all best
    solutions, and only these rows are new. *)
Theorem C72_events : forall g m root s bs lv c, NoDup (map e_name (sc_evhdlrs s)) ->
  run_phases g m root (mkLive s [] []) (phases_of bs) = Ok (lv, c) ->
  c = Okay /\ lv_subs lv = [] /\ sc_conshdlrs (lv_scip lv) = sc_conshdlrs s /\ sc_conss (lv_scip lv) = sc_conss s /\
  (forall name k, ev_named (sc_evhdlrs s) name k -> picked (wants k) (inside bs) (heard name (lv_log lv))) /\
  (forall name oc, In (name, oc) (lv_log lv) -> In name (map e_name (sc_evhdlrs s))) /\
  exists l new, Forall2 (fun h x => did g m root (bounds_of (inside bs)) h (fst x) (snd x)) (sc_evhdlrs s) l /\
    sc_evhdlrs (lv_scip lv) = map fst l /\ sc_rows (lv_scip lv) = sc_rows s ++ new /\ Permutation new (concat (map snd l)).
Proof. exact events_run. Qed.
Print Assumptions C72_events.

(** Such a run fails only if the work of a cost cover handler does. *)
Theorem C72_events_go : forall g m root s bs, NoDup (map e_name (sc_evhdlrs s)) ->
  Forall (fun h => exists h' r, did g m root (bounds_of (inside bs)) h h' r) (sc_evhdlrs s) ->
  exists lv, run_phases g m root (mkLive s [] []) (phases_of bs) = Ok (lv, Okay).
Proof. exact events_go. Qed.
Print Assumptions C72_events_go.

Example C72_events_case :
  let bs := [Between LpSolved; Solve [NodeFocused; FirstLpSolved; LpSolved; BestSol 7 2; NodeInfeasible]; Between (BestSol 2 1);
             Solve [PoorSolFound; LpSolved; BestSol 1 1]] in
  NoDup (map e_name (sc_evhdlrs plug_s)) /\
  Forall (fun h => exists h' r, did plug_g (var_map plug_g) 0 (bounds_of (inside bs)) h h' r) (sc_evhdlrs plug_s) /\
  match run_phases plug_g (var_map plug_g) 0 (mkLive plug_s [] []) (phases_of bs) with
  | Ok (lv, c) => c = Okay /\
      lv_log lv = [("pctsp_node_handler", NodeFocused); ("pctsp_bound_handler", LpSolved); ("Disjoint paths cost cover", BestSol 7 2);
                   ("pctsp_node_handler", NodeInfeasible); ("pctsp_bound_handler", LpSolved); ("Disjoint paths cost cover", BestSol 1 1)] /\
      sc_rows (lv_scip lv) = sc_rows plug_s ++ [plug_row1; plug_row1] /\
      summary_cover (lv_scip lv) "Disjoint paths cost cover" = Ok (3, 1)%Z
  | _ => False
  end.
Proof.
  intros bs. split; [cbn; repeat constructor; cbn; intuition discriminate|]. split.
  - repeat constructor; eexists; eexists; constructor. vm_compute. reflexivity.
  - vm_compute. auto.
Qed.

(** The numbers of cost cover constraints, where there is a handler: with those for the first solution. *)
Theorem C72_cut_numbers : forall s name o, ev_named (sc_evhdlrs s) name (ECover o) ->
  get_n_cover_cuts s name = Ok ((co_added o + co_init o) mod 2 ^ 32)%Z /\
  summary_cover s name = Ok ((co_added o + co_init o) mod 2 ^ 32, co_init o)%Z.
Proof. exact cut_numbers_there. Qed.
Print Assumptions C72_cut_numbers.

(** Where there is none: the summary says zero, but the functions for the numbers read from a null pointer. *)
Theorem C72_cut_numbers_without : forall s name, ~ In name (map e_name (sc_evhdlrs s)) ->
  get_n_cover_cuts s name = UB NullDeref /\ summary_cover s name = Ok (0, 0)%Z.
Proof. exact cut_numbers. Qed.
Print Assumptions C72_cut_numbers_without.

Example C72_cut_numbers_case : ev_named (sc_evhdlrs plug_s) "Disjoint paths cost cover" (ECover (mkCoverObj [0;9;1]%Z 0 1)) /\
  get_n_cover_cuts plug_s "Disjoint paths cost cover" = Ok 1%Z /\
  ~ In "Shortest path cost cover" (map e_name (sc_evhdlrs plug_s)).
Proof. split; [eexists [], _; split; [reflexivity|intros []]|]. split; [reflexivity|]. cbn. intuition discriminate. Qed.

(** ** Solutions *)

(** An LP solution is shown to the subtour handler before anything else is asked, so also if it is fractional; the cycle cover
    handler is last. *)
Theorem C72_enforce_order : forall defaults o order, po_simple o = true ->
  by_priority c_enfopriority (wanted_conshdlrs defaults o) order ->
  map c_name order = ["pctsp_sec_handler"; "integral"; "varbound"; "knapsack"; "linear"] ++
    (if fl_cycle_cover (po_flags o) then ["Cycle cover"] else []).
Proof.
  intros defaults o order Hs Ho. rewrite (enfo_order _ _ _ Hs Ho). unfold cc_of. now destruct (fl_cycle_cover (po_flags o)).
Qed.
Print Assumptions C72_enforce_order.

(** A solution is shown to the handlers of this code after all others. *)
Theorem C72_check_order : forall defaults o order, po_simple o = true ->
  by_priority c_checkpriority (wanted_conshdlrs defaults o) order ->
  exists own, Permutation own ("pctsp_sec_handler" :: (if fl_cycle_cover (po_flags o) then ["Cycle cover"] else [])) /\
    map c_name order = ["integral"; "varbound"; "knapsack"; "linear"] ++ own.
Proof.
  intros defaults o order Hs Ho. destruct (check_order _ _ _ Hs Ho) as (own & HP & ->). exists (map c_name own). split; [|reflexivity].
  rewrite HP. unfold cc_of. cbn [map]. now destruct (fl_cycle_cover (po_flags o)).
Qed.
Print Assumptions C72_check_order.

(** What becomes of the LP solutions of a solve: an integral one that is a cycle is accepted, a fractional one leads to branching,
    and an integral one that is not a cycle is rejected, unless the gaps have stalled: then SCIP stops with an error, because the
    subtour handler asks for branching and there is nothing to branch on. *)
Theorem C72_enforce : forall D (small : D -> D -> bool) o defaults g entries,
  po_simple o = true -> graph_ok g -> no_parallel g -> var_entries g entries ->
  forall s order (cs : list (lp_call D)), sc_conshdlrs s = wanted_conshdlrs defaults o ->
  by_priority c_enfopriority (sc_conshdlrs s) order -> Forall lp_ok cs ->
  exists rs, enforce_run small g entries s order cs [] = Ok rs /\ outcomes small (po_tailing o) g [] cs rs.
Proof. intros. eapply enforce_from_start; eassumption. Qed.
Print Assumptions C72_enforce.

(** With a tailing-off number of at most 1, this does not happen. *)
Theorem C72_never_invalid : forall D (small : D -> D -> bool) o defaults g entries,
  po_simple o = true -> graph_ok g -> no_parallel g -> var_entries g entries -> (po_tailing o <= 1)%Z ->
  forall s order (cs : list (lp_call D)), sc_conshdlrs s = wanted_conshdlrs defaults o ->
  by_priority c_enfopriority (sc_conshdlrs s) order -> Forall lp_ok cs ->
  exists rs, enforce_run small g entries s order cs [] = Ok rs /\ ~ In Invalid rs.
Proof.
  intros D small o defaults g entries Hs Hg Hp He Hk s order cs E Ho HF.
  destruct (enforce_from_start small o defaults g entries Hs Hg Hp He s order cs E Ho HF) as (rs & Er & H).
  exists rs. split; [exact Er|]. eapply no_invalid; eassumption.
Qed.
Print Assumptions C72_never_invalid.

(** The model for six vertices, its solver, and the orders of its handlers. *)
Definition six_m : ilp := match model_pctsp cut_g [] [1;1;1;1;1;1;1;1;0;0;0;0;0;0]%Z cut_p 12 0 with
  | Ok m => m | _ => mkIlp cut_g [] [] [] None end.
Definition six_s (tailing : Z) : scip := wanted [] (plug_o false false true tailing) six_m (mkBc None None [] 0 0 [] 0).
Definition six_enfo (tailing : Z) : list conshdlr :=
  [sec_conshdlr true false tailing 1; integral_conshdlr; varbound_conshdlr; knapsack_conshdlr; linear_conshdlr; cycle_cover_conshdlr].
Definition six_check (tailing : Z) : list conshdlr :=
  [integral_conshdlr; varbound_conshdlr; knapsack_conshdlr; linear_conshdlr; cycle_cover_conshdlr; sec_conshdlr true false tailing 1].
Definition six_half : sol := mkSol 2 (fun _ => 1%Z).

(** One expects that the integral solutions of the model that are not a cycle are always just rejected. The first here is, and the
    second stops SCIP with an error. *)
Theorem C72_invalid_refuted : exists (order : list conshdlr) (x : sol), by_priority c_enfopriority (sc_conshdlrs (six_s 2)) order /\
  binary cut_g x /\ Forall (row_sat x) (sc_rows (six_s 2)) /\
  enforce_run Z.eqb cut_g (id_entries cut_g) (six_s 2) order
    [mkLpCall 1 9%Z LpOptimal x; mkLpCall 1 9%Z LpOptimal x] [] = Ok [Rejects; Invalid].
Proof.
  exists (six_enfo 2), cut_two. split.
  - split.
    + cbn. apply NoDup_Permutation; [repeat constructor; cbn; intuition discriminate..|]. intros h. cbn. tauto.
    + repeat (constructor; [|repeat (constructor; [vm_compute; discriminate|]); constructor]). constructor.
  - split; [checkI|]. split; [checkI|]. vm_compute. reflexivity.
Qed.
Print Assumptions C72_invalid_refuted.

(** A solution with values 0 and 1 passes the checks of all handlers exactly if it is a tour from the root that meets the quota and
    the rows added to those of the model hold. The handlers of this code see only solutions that satisfy all rows. *)
Theorem C72_check : forall o defaults g heur c p P quota root entries m s order extra x,
  po_simple o = true -> graph_ok g -> no_parallel g -> all_loops g -> List.length c = List.length (ge g) -> prizes_within g p 0 P ->
  (Z.of_nat (gn g) * P <= int_max)%Z -> (- int_max <= quota <= int_max)%Z -> root < gn g ->
  (Z.of_nat (List.length (ge g)) <= 1000000000)%Z -> var_entries g entries ->
  (heur = [] \/ exists t es, tour_from g root t /\ trail g t es /\ Permutation heur es) ->
  model_pctsp g heur c p quota root = Ok m ->
  sc_conshdlrs s = wanted_conshdlrs defaults o -> sc_conss s = wanted_conss o -> sc_rows s = i_cons m ++ extra ->
  by_priority c_checkpriority (sc_conshdlrs s) order -> binary g x ->
  exists b names, check_solution g p quota root entries s order x = Ok (b, names) /\
    (b = true <-> (exists t, tour_from g root t /\ incidence g t x /\ meets_quota p quota t) /\ Forall (row_sat x) extra) /\
    (In "pctsp_sec_handler" names \/ In "Cycle cover" names -> Forall (row_sat x) (i_cons m ++ extra)).
Proof. exact check_model. Qed.
Print Assumptions C72_check.

(** An LP solution with values 0 and 1 is accepted exactly if it passes the checks. *)
Theorem C72_accepted_checked : forall D (small : D -> D -> bool) o defaults g heur c p P quota root entries m s order order' extra
    (before : list (lp_call D)) lc,
  po_simple o = true -> graph_ok g -> no_parallel g -> all_loops g -> List.length c = List.length (ge g) -> prizes_within g p 0 P ->
  (Z.of_nat (gn g) * P <= int_max)%Z -> (- int_max <= quota <= int_max)%Z -> root < gn g ->
  (Z.of_nat (List.length (ge g)) <= 1000000000)%Z -> var_entries g entries ->
  (heur = [] \/ exists t es, tour_from g root t /\ trail g t es /\ Permutation heur es) ->
  model_pctsp g heur c p quota root = Ok m ->
  sc_conshdlrs s = wanted_conshdlrs defaults o -> sc_conss s = wanted_conss o -> sc_rows s = i_cons m ++ extra ->
  by_priority c_enfopriority (sc_conshdlrs s) order -> by_priority c_checkpriority (sc_conshdlrs s) order' ->
  Forall lp_ok (before ++ [lc]) -> binary g (lc_sol lc) -> Forall (row_sat (lc_sol lc)) (sc_rows s) ->
  exists rs, (enforce_run small g entries s order (before ++ [lc]) [] = Ok (rs ++ [Accepts]) <->
              exists names, check_solution g p quota root entries s order' (lc_sol lc) = Ok (true, names)) /\
             exists r, enforce_run small g entries s order (before ++ [lc]) [] = Ok (rs ++ [r]).
Proof. exact @accepted_checked. Qed.
Print Assumptions C72_accepted_checked.

Example C72_check_case :
  let s := six_s 3 in
  let heavy := mkLin [(0,1%Z)] None (Some 0%Z) in
  graph_ok cut_g /\ no_parallel cut_g /\ all_loops cut_g /\ prizes_within cut_g cut_p 0 6 /\ var_entries cut_g (id_entries cut_g) /\
  model_pctsp cut_g [] [1;1;1;1;1;1;1;1;0;0;0;0;0;0]%Z cut_p 12 0 = Ok six_m /\
  sc_conshdlrs s = wanted_conshdlrs [] (plug_o false false true 3) /\ sc_conss s = wanted_conss (plug_o false false true 3) /\
  sc_rows s = i_cons six_m ++ [] /\
  by_priority c_enfopriority (sc_conshdlrs s) (six_enfo 3) /\ by_priority c_checkpriority (sc_conshdlrs s) (six_check 3) /\
  binary cut_g cut_tour /\ Forall (row_sat cut_tour) (sc_rows s) /\
  enforce_run Z.eqb cut_g (id_entries cut_g) s (six_enfo 3)
    [mkLpCall 1 9%Z LpOptimal six_half; mkLpCall 1 9%Z LpOptimal cut_two; mkLpCall 2 8%Z LpOptimal cut_two;
     mkLpCall 2 7%Z LpOptimal cut_tour] [] = Ok [Resolves; Rejects; Rejects; Accepts] /\
  check_solution cut_g cut_p 12 0 (id_entries cut_g) s (six_check 3) cut_tour =
    Ok (true, ["integral"; "linear"; "Cycle cover"; "pctsp_sec_handler"]) /\
  check_solution cut_g cut_p 12 0 (id_entries cut_g) s (six_check 3) cut_two =
    Ok (false, ["integral"; "linear"; "Cycle cover"]) /\
  check_solution cut_g cut_p 12 0 (id_entries cut_g) (mkScip (sc_conshdlrs s) [] (sc_conss s) (sc_rows s ++ [heavy])) (six_check 3) cut_tour =
    Ok (false, ["integral"; "linear"]).
Proof.
  intros s heavy. split; [check|]. split; [checkI|]. split; [checkI|]. split; [check|]. split; [apply id_entries_ok|].
  split; [vm_compute; reflexivity|]. split; [reflexivity|]. split; [reflexivity|]. split; [vm_compute; reflexivity|].
  split; [split; [apply NoDup_Permutation; [repeat constructor; cbn; intuition discriminate..|intros h; cbn; tauto]|
    repeat (constructor; [|repeat (constructor; [vm_compute; discriminate|]); constructor]); constructor]|].
  split; [split; [apply NoDup_Permutation; [repeat constructor; cbn; intuition discriminate..|intros h; cbn; tauto]|
    repeat (constructor; [|repeat (constructor; [vm_compute; discriminate|]); constructor]); constructor]|].
  split; [checkI|]. split; [checkI|]. vm_compute. auto.
Qed.

(** The handlers of this code set no locks. None are missing: the rows of the model lock every variable both ways, and changing one
    variable of a point that satisfies them always violates one. *)
Theorem C72_locks : forall g heur c p quota root m e,
  graph_ok g -> no_parallel g -> all_loops g -> List.length c = List.length (ge g) -> prizes_within g p (- int_max) int_max ->
  (- int_max <= quota <= int_max)%Z -> root < gn g ->
  (heur = [] \/ exists t es, tour_from g root t /\ trail g t es /\ Permutation heur es) ->
  model_pctsp g heur c p quota root = Ok m -> e < List.length (ge g) ->
  1 <= fst (locks e (i_cons m)) /\ 1 <= snd (locks e (i_cons m)) /\
  exists r, In r (i_cons m) /\ forall x a, row_sat x r -> a <> s_num x e -> ~ row_sat (moved x e a) r.
Proof.
  intros g heur c p quota root m e H1 H2 H3 H4 H5 H6 H7 H8 E He. apply (edge_locked g p quota root); auto. eapply model_rows; eauto.
Qed.
Print Assumptions C72_locks.

Example C72_locks_case : model_pctsp cut_g [] [1;1;1;1;1;1;1;1;0;0;0;0;0;0]%Z cut_p 12 0 = Ok six_m /\
  map (fun e => locks e (i_cons six_m)) (seq 0 14) = repeat (2, 2) 8 ++ [(3, 2)] ++ repeat (2, 1) 5.
Proof. split; vm_compute; reflexivity. Qed.
