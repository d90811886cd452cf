(** * Properties_Handler: the theorems for C66 (the callbacks of the subtour handler) *)
From Verif Require Import Base Graph Spec Spec_Cycle M_Walk M_Graph M_Solution M_ILP M_Subtour M_MaxFlow
  M_Handler Spec_ILP Spec_Flow Spec_Handler.
From Verif Require Import P_Base P_Check P_CheckILP P_CheckFlow P_Handler.
From Verif Require Import Properties_Cuts.
Open Scope nat_scope.

(** Whatever calls SCIP makes of the handler, in any order and at any nodes, all return
    normally, and: a solution is accepted exactly if its positive edges are one cycle; an LP
    solution that is not is resolved by branching exactly if the LP is solved and the last gaps at
    the same node, those of the other rejected LP solutions there, have stalled, whatever happened
    at other nodes in between; separation adds only rows that hold for all tours, and its answer is
    about the last row it added. *)
Theorem C66_answers : forall (D : Type) (cfg : @hdlr_cfg D) mf g entries root cs,
  graph_ok g -> no_parallel g -> all_loops g -> var_entries g entries ->
  (Z.of_nat (gn g) <= int_max)%Z -> root < gn g ->
  (forall d s t, length (snd (mf d s t)) = length (n_arcs d)) ->
  Forall (call_ok cfg g root) cs ->
  exists h l, hdlr_run cfg mf g entries root new_hdlr cs = Ok (h, l) /\
    all_answers cfg g root [] [] cs l (hd_rows h).
Proof. intros D cfg mf g entries root cs Hg Hp Hl He Hm Hr Hf. exact (handler_run cfg mf g entries root Hg Hp He Hl Hm Hr Hf cs). Qed.
Print Assumptions C66_answers.

(** The history of a node is a function of the calls. *)
Theorem C66_history_unique : forall (D : Type) g n (cs : list (@hcall D)) l1 l2,
  rejected g n cs l1 -> rejected g n cs l2 -> l1 = l2.
Proof. intros D g n cs l1 l2 H1 H2. exact (rejected_fun g n cs l1 H1 l2 H2). Qed.
Print Assumptions C66_history_unique.

(** A number of iterations below 2, as in the default constructor, switches branching off;
    one would expect that 1 does not. *)
Theorem C66_never_branches : forall (D : Type) (cfg : @hdlr_cfg D) mf g entries root cs h l,
  (h_tailing cfg <= 1)%Z -> hdlr_run cfg mf g entries root new_hdlr cs = Ok (h, l) -> ~ In AsksToBranch l.
Proof. exact @never_branches. Qed.
Print Assumptions C66_never_branches.

(** The second constructor gives such a handler. *)
Theorem C66_default : forall (D : Type) small disjoint maxflow mf g entries root (cs : list (@hcall D)) h l,
  hdlr_run (default_cfg small disjoint maxflow) mf g entries root new_hdlr cs = Ok (h, l) -> ~ In AsksToBranch l.
Proof. intros D small disjoint maxflow mf g entries root cs h l. apply never_branches. discriminate. Qed.
Print Assumptions C66_default.

(** Without progress the branching happens at the [k]-th rejected LP solution of a node, not
    earlier, and then at every further one. *)
Theorem C66_no_progress : forall (D : Type) (cfg : @hdlr_cfg D) mf g entries root n gap s m,
  graph_ok g -> no_parallel g -> var_entries g entries -> (0 < s_den s)%Z -> ~ on_one_cycle g s ->
  (0 <= n < int_max)%Z -> (2 <= h_tailing cfg)%Z -> h_small cfg gap gap = true ->
  exists h, hdlr_run cfg mf g entries root new_hdlr (repeat (EnfoLp n gap LpOptimal s) m) =
    Ok (h, map (fun i => if (Z.of_nat i + 1 <? h_tailing cfg)%Z then Says Infeasible else AsksToBranch) (seq 0 m)).
Proof. exact @no_progress. Qed.
Print Assumptions C66_no_progress.

(** The numbers of nodes are cut to 32 bits: node 2^32 shares the history of node 0, node 2^31
    makes the vector throw, and the largest int overflows. *)
Theorem C66_large_numbers_refuted : exists (cfg : @hdlr_cfg Z) g s entries,
  graph_ok g /\ no_parallel g /\ all_loops g /\ var_entries g entries /\ (0 < s_den s)%Z /\
  let call n := EnfoLp n 5%Z LpOptimal s in
  let run := hdlr_run cfg big_flow g entries 0 new_hdlr in
  (exists h, run [call 0; call 4294967296]%Z = Ok (h, [Says Infeasible; AsksToBranch])) /\
  run [call 2147483648%Z] = Throw LengthError /\ run [call 2147483647%Z] = UB IntOverflow /\
  run [call 4294967295%Z] = UB VecOOB.
Proof.
  exists (mkHdlr true (fun a b => a - b <? 2)%Z true 2), cut_g, cut_two, (id_entries cut_g).
  split; [check|]. split; [checkI|]. split; [checkI|]. split; [apply id_entries_ok|]. split; [reflexivity|].
  split; [eexists; vm_compute; reflexivity|]. split; [vm_compute; reflexivity|]. split; vm_compute; reflexivity.
Qed.
Print Assumptions C66_large_numbers_refuted.

(** Two nodes visited in turn, with 3 gaps kept; a fractional cycle is accepted (integrality is
    another handler's business) and its gap not kept; a node whose LP was not solved does not
    branch. *)
Definition half_tour : sol := mkSol 2 (fun e => if memb e [0;1;6;3;7;8;9;10;11;12] then 1%Z else 0%Z).
Example C66_case :
  let cfg := mkHdlr true (fun a b => a - b <? 2)%Z true 3 in
  let cs := [SepaLp all_rows cut_two; EnfoLp 1 9%Z LpOptimal cut_two; EnfoLp 2 9%Z LpOptimal cut_two;
             EnfoLp 1 8%Z LpOptimal cut_two; EnfoLp 2 5%Z LpOptimal cut_two; EnfoLp 1 100%Z LpOptimal half_tour;
             EnfoLp 2 5%Z LpOptimal cut_two; EnfoLp 1 8%Z LpOptimal cut_two; EnfoLp 2 4%Z LpIterLimit cut_two;
             EnfoLp 2 4%Z LpUnboundedRay cut_two; CheckSol cut_two; CheckSol cut_tour; EnfoPs cut_two;
             SepaSol all_rows cut_tour DidNotRun] in
  graph_ok cut_g /\ no_parallel cut_g /\ all_loops cut_g /\ var_entries cut_g (id_entries cut_g) /\
  (forall d s t, length (snd (big_flow d s t)) = length (n_arcs d)) /\
  Forall (call_ok cfg cut_g 0) cs /\
  match hdlr_run cfg big_flow cut_g (id_entries cut_g) 0 new_hdlr cs with
  | Ok (h, l) => l =
      [Says Separated; Says Infeasible; Says Infeasible; Says Infeasible; Says Infeasible; Says Feasible;
       Says Infeasible; AsksToBranch; Says Infeasible; AsksToBranch; Says Infeasible; Says Feasible; Says Infeasible;
       Says DidNotRun] /\ hd_gaps h = [[]; [9;8;8]; [5;4;4]]%Z /\ length (hd_rows h) = 3
  | _ => False
  end.
Proof.
  intros cfg cs. split; [check|]. split; [checkI|]. split; [checkI|]. split; [apply id_entries_ok|].
  split; [intros; apply map_length|]. split.
  - assert (HR : forall s, s = cut_two \/ s = cut_tour ->
      exists e v, joins cut_g e 0 v /\ 0 <> v /\ above_zero s e).
    { intros s [-> | ->]; exists 0, 1; (split; [left; reflexivity|]; split; [discriminate|]); reflexivity. }
    repeat (apply Forall_cons; [unfold call_ok; repeat split; auto; try discriminate|]); constructor.
  - vm_compute. auto.
Qed.
