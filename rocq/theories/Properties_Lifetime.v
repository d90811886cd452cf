(** * Properties_Lifetime: who owns what (C70) *)
From Verif Require Import Base Graph P_Base P_Dijkstra M_ILP M_CostCover M_Solve M_Lifetime Spec_Lifetime P_Lifetime.
Open Scope nat_scope.

(** When [SCIPsolve] starts, every variable has exactly the references of the problem and of
    the constraints that hold it, and every constraint exactly that of the problem; when the
    problem is freed nothing is used after its end and nothing is left. *)
Theorem C70_counts : forall tb fl g heur c p quota root dist m st,
  solve_start tb fl g heur c p quota root dist = Ok (m, st) ->
  exists w, lt_solve fl m st = Ok w /\
    owned_by_problem (length (ge (i_graph m))) (i_cons m ++ opt_rows (b_dp st) ++ opt_rows (b_sp st))
      (if fl_cycle_cover fl then 2 else 1) w /\
    exists w', free_prob w = Ok w' /\ all_freed w'.
Proof. exact counts_ok. Qed.
Print Assumptions C70_counts.

(** [PCTSPaddPrizeConstraint] gives back the reference that [PCTSPaddEdgeVariables] kept, for
    the variables it is given and no others; a variable it is not given is left over when the
    problem is freed. *)
Theorem C70_prize : forall n ts, NoDup (map fst ts) -> Forall (fun t : nat * Z => fst t < n) ts ->
  exists w w' w'', lt_edge_variables n empty_world = Ok w /\ lt_prize w ts = Ok w' /\ free_prob w' = Ok w'' /\
    (forall v, v < n -> nth_error (w_vars w') v = Some (holders [mkLin ts None None] v + (if memb v (map fst ts) then 1 else 2))) /\
    (forall v, v < n -> nth_error (w_vars w'') v = Some (if memb v (map fst ts) then 0 else 1)).
Proof. exact prize_alone. Qed.
Print Assumptions C70_prize.

(** What one call of the solver leaves behind when SCIP is freed: the log file, and the cycle
    cover handler if it is not used. *)
Theorem C70_left : forall fl, left_over (solve_hops fl) = ((if fl_cycle_cover fl then [] else [OCycleHdlr]) ++ [OLogFile], 0).
Proof. exact left_full. Qed.
Print Assumptions C70_left.

(** Which objects are made, and which SCIP gets: the handlers of the options that are set, and always the problem data, the handler
    of subtours, the two event handlers and the log file. *)
Theorem C70_made : forall fl o,
  (In (Include o) (solve_hops fl) <-> In o [OProbData; OSubtourHdlr; ONodeHdlr; OBoundsHdlr] \/
     (o = ODisjointHdlr /\ fl_disjoint_paths fl = true) \/ (o = OShortestHdlr /\ fl_shortest_path fl = true) \/ (o = OCycleHdlr /\ fl_cycle_cover fl = true)) /\
  (In (New o) (solve_hops fl) <-> In (Include o) (solve_hops fl) \/ o = OCycleHdlr \/ o = OLogFile) /\
  NoDup (solve_hops fl).
Proof. exact hops_made. Qed.
Print Assumptions C70_made.

(** If the call ends early, after any number of its operations, the message handler is left
    over; of the objects only the one just made, the log file and an unused cycle cover handler
    can be. *)
Theorem C70_left_early : forall fl k, 0 < k < length (solve_hops fl) ->
  snd (left_over (firstn k (solve_hops fl))) = 1 /\
  forall o, In o (fst (left_over (firstn k (solve_hops fl)))) ->
    nth_error (solve_hops fl) (k - 1) = Some (New o) \/ o = OLogFile \/ (o = OCycleHdlr /\ fl_cycle_cover fl = false).
Proof. exact left_cut. Qed.
Print Assumptions C70_left_early.

(** If the compiler builds the returned map in place, no function that reads the problem data
    during the call reads an object after its end. *)
Theorem C70_pointers : forall during, pointer_life true during [] = Ok tt.
Proof. exact pointer_life_elided. Qed.
Print Assumptions C70_pointers.

(** If it does not, the first of them does. *)
Theorem C70_pointers_copied : forall during,
  pointer_life false during [] = match during with [] => Ok tt | _ => UB UseAfterFree end.
Proof. exact pointer_life_copied. Qed.
Print Assumptions C70_pointers_copied.

(** After the call the problem data of the model point to ended objects in any case. *)
Theorem C70_pointers_later : forall during r later, pointer_life true during (r :: later) = UB UseAfterFree.
Proof. exact pointer_life_later. Qed.
Print Assumptions C70_pointers_later.

(** [knapsack] with at most as many weights as costs: the variables without a weight keep a
    reference, and the message handler keeps one always. *)
Theorem C70_knapsack : forall costs weights, length weights <= length costs ->
  exists w, lt_knapsack costs weights = Ok (w, 1) /\ length (w_vars w) = length costs /\
    (forall v, v < length costs -> nth_error (w_vars w) v = Some (if v <? length weights then 0 else 1)) /\
    Forall (fun k => fst k = 0) (w_conss w).
Proof.
  intros costs weights H. destruct (knapsack_ok costs weights H) as (w & E & [H1 H2] & H3).
  exists w. repeat split; auto.
Qed.
Print Assumptions C70_knapsack.

(** With more weights than costs it reads past the array of the variables. *)
Theorem C70_knapsack_far : forall costs weights, length costs < length weights -> lt_knapsack costs weights = UB VecOOB.
Proof. exact knapsack_far. Qed.
Print Assumptions C70_knapsack_far.

(** The binding reads the capsule of the model only if someone else holds a reference to it. *)
Theorem C70_capsule : forall kept, scip_of_model kept = Ok tt <-> 0 < kept.
Proof.
  intros kept. unfold scip_of_model, capsule_get. destruct (Nat.eqb_spec (kept + 1 - 1) 0); split; intros H; try lia; try discriminate; auto.
Qed.
Print Assumptions C70_capsule.

(** [modelFromCpp] leaves one reference of its capsule that nobody holds. *)
Theorem C70_from_cpp : forall kept, model_from_cpp_refs kept = kept + 1.
Proof. intros kept. unfold model_from_cpp_refs. lia. Qed.
Print Assumptions C70_from_cpp.

(** ** cases *)
Definition tri3 : graph := mkGraph 3 [(0,1);(1,2);(2,0)].
Definition every_flag : solve_flags := mkFlags true true true true true.

Example C70_counts_case : exists m st w w',
  solve_start pick_first every_flag tri3 [0;1;2] [1;1;1]%Z [1;1;1]%Z 3 0 [0;9;3]%Z = Ok (m, st) /\
  lt_solve every_flag m st = Ok w /\ w_vars w = [3;3;3;5;4;3] /\
  map fst (w_conss w) = [1;1;1;1;1;1;1;1] /\ free_prob w = Ok w' /\ w_vars w' = [0;0;0;0;0;0].
Proof.
  destruct (solve_start pick_first every_flag tri3 [0;1;2] [1;1;1]%Z [1;1;1]%Z 3 0 [0;9;3]%Z) as [[m st]|e|u|] eqn:E; vm_compute in E; try discriminate.
  injection E as <- <-. do 4 eexists. split; [reflexivity|].
  split; [vm_compute; reflexivity|]. split; [vm_compute; reflexivity|]. split; [vm_compute; reflexivity|]. split; vm_compute; reflexivity.
Qed.
Example C70_prize_case : exists w w', lt_edge_variables 3 empty_world = Ok w /\
  lt_prize w [(0, (-4)%Z); (1, 0%Z)] = Ok w' /\ w_vars w' = [2;1;2].
Proof. do 2 eexists. split; [vm_compute; reflexivity|]. split; vm_compute; reflexivity. Qed.
Example C70_left_case : left_over (solve_hops (mkFlags true false false true true)) = ([OCycleHdlr; OLogFile], 0) /\
  left_over (solve_hops every_flag) = ([OLogFile], 0).
Proof. split; vm_compute; reflexivity. Qed.
Example C70_left_early_case : left_over (firstn 5 (solve_hops every_flag)) = ([OSubtourHdlr], 1) /\
  left_over (firstn 6 (solve_hops every_flag)) = ([], 1) /\ left_over (firstn 0 (solve_hops every_flag)) = ([], 0).
Proof. repeat split; vm_compute; reflexivity. Qed.
Example C70_pointers_case : pointer_life true [RCostCover; RSepaSubtour; RCheckCycle; RCheckSubtour; RSepaCycle] [] = Ok tt /\
  pointer_life true [RSepaSubtour] [RCheckSubtour] = UB UseAfterFree.
Proof. split; vm_compute; reflexivity. Qed.
Example C70_knapsack_case : exists w, lt_knapsack [4;5;6]%Z [1;0]%Z = Ok (w, 1) /\ w_vars w = [0;0;1] /\
  lt_knapsack [4]%Z [1;2]%Z = UB VecOOB.
Proof. eexists. split; [vm_compute; reflexivity|]. split; vm_compute; reflexivity. Qed.
Example C70_capsule_case : scip_of_model 1 = Ok tt.
Proof. reflexivity. Qed.

(** The claim that nothing is left after a call is false: the handler made for the cycle
    covers is not deleted when they are off. *)
Theorem C70_left_refuted : exists fl, In OCycleHdlr (fst (left_over (solve_hops fl))).
Proof. exists (mkFlags false false false true true). vm_compute. auto. Qed.
Print Assumptions C70_left_refuted.

(** The claim that the problem data can be read during the call, whatever the compiler does
    about the returned map, is false. *)
Theorem C70_pointers_refuted : exists elide during, pointer_life elide during [] = UB UseAfterFree.
Proof. exists false, [RCheckSubtour]. vm_compute. reflexivity. Qed.
Print Assumptions C70_pointers_refuted.

(** The claim that [PCTSPaddPrizeConstraint] leaves the references of others alone is false:
    after a second prize constraint freeing the problem uses a variable after its end. *)
Theorem C70_prize_refuted : exists w w' w'', lt_edge_variables 1 empty_world = Ok w /\
  lt_prize w [(0, (-1)%Z)] = Ok w' /\ lt_prize w' [(0, (-1)%Z)] = Ok w'' /\ free_prob w'' = UB UseAfterFree.
Proof. do 3 eexists. split; [vm_compute; reflexivity|]. split; [vm_compute; reflexivity|]. split; vm_compute; reflexivity. Qed.
Print Assumptions C70_prize_refuted.

(** The claim that the binding reads the capsule while it exists is false for a model that
    keeps no reference to the capsule it returns. *)
Theorem C70_capsule_refuted : exists kept, scip_of_model kept = UB UseAfterFree.
Proof. exists 0. reflexivity. Qed.
Print Assumptions C70_capsule_refuted.

(** The claim that [knapsack] leaves nothing behind is false. *)
Theorem C70_knapsack_refuted : exists w, lt_knapsack [4;5]%Z [1]%Z = Ok (w, 1) /\ w_vars w = [0;1].
Proof. eexists. split; vm_compute; reflexivity. Qed.
Print Assumptions C70_knapsack_refuted.
