(** * M_Plugins: the handlers given to SCIP, from src/algorithms.cpp, src/cycle_cover.cpp, src/cost_cover.cpp,
    src/event_handlers.cpp and src/subtour_elimination.cpp

    Of SCIP only this is modelled: the tables of handlers, found by name; the constraints of these handlers; who is told about
    which event; in which order handlers are asked whether a solution is right, and what is done with their answers. *)
From Coq Require Import String.
From Verif Require Import Base Graph M_Walk M_Graph M_Dijkstra M_Solution M_ILP M_Subtour M_CycleCover M_CostCover M_MaxFlow
  M_Handler M_Solve.
Open Scope string_scope.
Open Scope list_scope.
Open Scope nat_scope.

(** ** The tables *)

(** What a constraint handler does: the subtour handler with its settings (subtour_elimination.hh:216-220; the threshold, a double,
    is left out), the cycle cover handler (cycle_cover.hh:148-178), and of those of SCIP the one for integrality and those whose
    constraints are rows of the LP (algorithms.cpp:260-263). *)
Inductive ckind := KSec (disjoint maxflow : bool) (tailing : Z) | KCycleCover | KIntegral | KRows.

(** The arguments of [ObjConshdlr] (subtour_elimination.hh:233-238, cycle_cover.hh:154-155) without the description and the two
    timings. *)
Record conshdlr := mkConshdlr {
  c_name : string; c_sepapriority : Z; c_enfopriority : Z; c_checkpriority : Z; c_sepafreq : Z; c_propfreq : Z; c_eagerfreq : Z;
  c_maxprerounds : Z; c_delaysepa : bool; c_delayprop : bool; c_needscons : bool; c_kind : ckind }.

(** SEC_CONSHDLR_NAME, subtour_elimination.hh:198. *)
Definition sec_name : string := "pctsp_sec_handler".
(** CYCLE_COVER_NAME, cycle_cover.hh:145. *)
Definition cycle_cover_name : string := "Cycle cover".
(** SHORTEST_PATH_COST_COVER_NAME, cost_cover.hh:119. *)
Definition shortest_name : string := "Shortest path cost cover".
(** DISJOINT_PATHS_COST_COVER_NAME, cost_cover.hh:120. *)
Definition disjoint_name : string := "Disjoint paths cost cover".
(** NODE_EVENTHDLR_NAME, event_handlers.hh:7. *)
Definition node_name : string := "pctsp_node_handler".
(** The name in event_handlers.hh:88. *)
Definition bound_name : string := "pctsp_bound_handler".

(** PCTSPconshdlrSubtour, subtour_elimination.hh:198-244. *)
Definition sec_conshdlr (disjoint maxflow : bool) (tailing sepafreq : Z) : conshdlr :=
  mkConshdlr sec_name 1000000 1000000 (-2000000) sepafreq (-1) 1 0 false false false (KSec disjoint maxflow tailing).

(** CycleCoverConshdlr, cycle_cover.hh:148-165. *)
Definition cycle_cover_conshdlr : conshdlr :=
  mkConshdlr cycle_cover_name 1000000 (-2000000) (-2000000) 1 (-1) 1 0 false false true KCycleCover.

(** The four handlers of algorithms.cpp:260-263, with the numbers of SCIP. *)
Definition linear_conshdlr : conshdlr :=
  mkConshdlr "linear" 100000 (-1000000) (-1000000) 0 1 100 (-1) false false true KRows.
(** See [linear_conshdlr] (algorithms.cpp:261). *)
Definition integral_conshdlr : conshdlr :=
  mkConshdlr "integral" 0 0 0 (-1) (-1) (-1) 0 false false false KIntegral.
(** See [linear_conshdlr] (algorithms.cpp:262). *)
Definition knapsack_conshdlr : conshdlr :=
  mkConshdlr "knapsack" 600000 (-600000) (-600000) 0 1 100 (-1) false false true KRows.
(** See [linear_conshdlr] (algorithms.cpp:263). *)
Definition varbound_conshdlr : conshdlr :=
  mkConshdlr "varbound" 900000 (-500000) (-500000) 0 1 100 (-1) false false true KRows.

(** The members of CostCoverEventHandler, cost_cover.hh:71-73. *)
Record cover_obj := mkCoverObj { co_dist : list Z; co_added : Z; co_init : Z }.

(** The event handlers: cost_cover.hh:67-117, event_handlers.hh:14-64,79-120. What the last two store is in M_Events. *)
Inductive ekind := ECover (o : cover_obj) | ENode | EBounds.

(** [ObjEventhdlr] (cost_cover.hh:77,88, event_handlers.hh:22,88) without the description. *)
Record evhdlr := mkEvhdlr { e_name : string; e_kind : ekind }.

(** A constraint of a handler (subtour_elimination.cpp:138-139, cycle_cover.cpp:52-53): its flags are initial, separate, enforce,
    check, propagate, local, modifiable, dynamic, removable and stickingatnode. *)
Record hcons := mkCons { k_name : string; k_hdlr : string; k_flags : list bool }.

(** What SCIP holds: the handlers in the order in which they were included, the constraints of handlers of this code, and the
    linear constraints (algorithms.cpp:117-311). *)
Record scip := mkScip { sc_conshdlrs : list conshdlr; sc_evhdlrs : list evhdlr; sc_conss : list hcons; sc_rows : list lin }.

(** The return codes of SCIP that matter here (algorithms.cpp:117-311). Of the errors, SCIP_PARAMETERWRONGVAL is not told from
    SCIP_INVALIDDATA. *)
Inductive retcode := Okay | InvalidData.

(** [SCIPfindConshdlr], [SCIPfindObjConshdlr] (subtour_elimination.cpp:131, cycle_cover.cpp:44,98). *)
Definition find_conshdlr (s : scip) (name : string) : option conshdlr :=
  find (fun h => String.eqb (c_name h) name) (sc_conshdlrs s).

(** [SCIPfindObjEventhdlr] (algorithms.cpp:72,84,93, cost_cover.cpp:134,141, subtour_elimination.cpp:456). *)
Definition find_evhdlr (s : scip) (name : string) : option ekind :=
  option_map e_kind (find (fun h => String.eqb (e_name h) name) (sc_evhdlrs s)).

(** The frequencies of a handler become parameters of SCIP, from -1 to SCIP_MAXTREEDEPTH, and so does the number of rounds of
    presolving, from -1 (SCIP; algorithms.cpp:184,301). *)
Definition params_ok (h : conshdlr) : bool :=
  (forallb (fun f => Z.leb (-1) f && Z.leb f 65534) [c_sepafreq h; c_propfreq h; c_eagerfreq h] &&
   Z.leb (-1) (c_maxprerounds h))%bool.

(** [SCIPincludeObjConshdlr] (algorithms.cpp:184,301): a name that is there already is an error, and so is a parameter out of its
    range; the handler is then not there. *)
Definition include_conshdlr (h : conshdlr) (s : scip) : scip * retcode :=
  match find_conshdlr s (c_name h) with
  | Some _ => (s, InvalidData)
  | None => if params_ok h then (mkScip (sc_conshdlrs s ++ [h]) (sc_evhdlrs s) (sc_conss s) (sc_rows s), Okay)
            else (s, InvalidData)
  end.

(** [SCIPincludeObjEventhdlr] (algorithms.cpp:192,194, cost_cover.cpp:110). *)
Definition include_evhdlr (h : evhdlr) (s : scip) : scip * retcode :=
  match find_evhdlr s (e_name h) with
  | Some _ => (s, InvalidData)
  | None => (mkScip (sc_conshdlrs s) (sc_evhdlrs s ++ [h]) (sc_conss s) (sc_rows s), Okay)
  end.

(** [SCIPincludeDefaultPlugins] (algorithms.cpp:276), which stops at the first error. Which handlers these are is a parameter. *)
Fixpoint include_all (hs : list conshdlr) (s : scip) : scip * retcode :=
  match hs with
  | [] => (s, Okay)
  | h :: hs => match include_conshdlr h s with (s, Okay) => include_all hs s | (s, c) => (s, c) end
  end.

(** [SCIPcreateObjProb] (algorithms.cpp:290): an earlier problem is freed with its constraints; the handlers stay. *)
Definition create_prob (s : scip) : scip := mkScip (sc_conshdlrs s) (sc_evhdlrs s) [] [].

(** PCTSPcreateConsSubtour and createCycleCoverCons (subtour_elimination.cpp:110-168, cycle_cover.cpp:26-76) and then [SCIPaddCons]
    (algorithms.cpp:309-310, 186-187): without the handler the pointer that is added was never written. *)
Definition create_and_add (name hdlr : string) (s : scip) : res scip :=
  match find_conshdlr s hdlr with
  | None => UB Uninit
  | Some _ => Ok (mkScip (sc_conshdlrs s) (sc_evhdlrs s)
      (sc_conss s ++ [mkCons name hdlr [false; true; true; true; true; false; false; false; true; false]]) (sc_rows s))
  end.

(** [scip_trans] of both handlers (subtour_elimination.cpp:235-246, cycle_cover.cpp:128-139): the constraint of the transformed
    problem, with the flags read one by one. *)
Definition trans_cons (k : hcons) : res hcons :=
  do initial <- vget (k_flags k) 0; do separated <- vget (k_flags k) 1; do enforced <- vget (k_flags k) 2;
  do checked <- vget (k_flags k) 3; do propagated <- vget (k_flags k) 4; do local <- vget (k_flags k) 5;
  do modifiable <- vget (k_flags k) 6; do dynamic <- vget (k_flags k) 7; do removable <- vget (k_flags k) 8;
  do sticking <- vget (k_flags k) 9;
  Ok (mkCons (k_name k) (k_hdlr k)
    [initial; separated; enforced; checked; propagated; local; modifiable; dynamic; removable; sticking]).

(** ** Before solving *)

(** The arguments of solvePrizeCollectingTSP that concern the handlers (algorithms.cpp:127-136). *)
Record options := mkOptions { po_flags : solve_flags; po_tailing : Z; po_sepafreq : Z; po_simple : bool }.

(** modelPrizeCollectingTSP, algorithms.cpp:255-311; [rows] are those of line 292 (M_ILP). The return codes of 260-263, 276 and 301
    are not looked at. *)
Definition install_model (defaults : list conshdlr) (o : options) (rows : list lin) (s : scip) : res scip :=
  let s := if po_simple o
           then fold_left (fun s h => fst (include_conshdlr h s))
                  [linear_conshdlr; integral_conshdlr; knapsack_conshdlr; varbound_conshdlr] s
           else fst (include_all defaults s) in
  let s := create_prob s in
  let s := mkScip (sc_conshdlrs s) (sc_evhdlrs s) (sc_conss s) (sc_rows s ++ rows) in
  let s := fst (include_conshdlr (sec_conshdlr (fl_sec_disjoint (po_flags o)) (fl_sec_maxflow (po_flags o)) (po_tailing o)
                                   (po_sepafreq o)) s) in
  create_and_add "subtour-constraint" sec_name s.

(** A cost cover handler gets new members (cost_cover.cpp:33-35,45-47). *)
Definition set_cover (s : scip) (name : string) (o : cover_obj) (rows : list lin) : scip :=
  mkScip (sc_conshdlrs s)
    (map (fun h => if String.eqb (e_name h) name then mkEvhdlr (e_name h) (ECover o) else h) (sc_evhdlrs s))
    (sc_conss s) (sc_rows s ++ rows).

(** algorithms.cpp:163-180 for one of the two handlers, with cost_cover.cpp:102-112,132-144; the members of a null pointer are read
    if no cost cover handler has the name. *)
Definition install_cover (g : graph) (m : nat -> option nat) (root : nat) (ub : Z) (name : string) (dist : list Z) (s : scip)
    : res scip :=
  let s := fst (include_evhdlr (mkEvhdlr name (ECover (mkCoverObj dist 0 0))) s) in
  if Z.ltb 0 ub then
    match find_evhdlr s name with
    | Some (ECover o) =>
        do r <- separate_then_add g m root (co_dist o) ub;
        Ok (set_cover s name (mkCoverObj (co_dist o) (co_added o) (snd r)) (fst r))
    | _ => UB NullDeref
    end
  else Ok s.

(** solvePrizeCollectingTSP before [SCIPsolve], algorithms.cpp:154-194. *)
Definition install (tb : tiebreak) (defaults : list conshdlr) (o : options) (m : ilp) (heur : list nat) (root : nat)
    (dist : list Z) (s : scip) : res scip :=
  let g := i_graph m in
  let c := i_cost m in
  do s <- install_model defaults o (i_cons m) s;
  do ub <- total_cost_edges c heur;
  do s <- (if fl_disjoint_paths (po_flags o) then install_cover g (var_map g) root ub disjoint_name dist s else Ok s);
  do s <- (if fl_shortest_path (po_flags o)
           then do ds <- shortest_path_distances tb g c c root; install_cover g (var_map g) root ub shortest_name ds s
           else Ok s);
  do s <- (if fl_cycle_cover (po_flags o)
           then create_and_add "cycle_cover_" cycle_cover_name (fst (include_conshdlr cycle_cover_conshdlr s))
           else Ok s);
  let s := fst (include_evhdlr (mkEvhdlr node_name ENode) s) in
  Ok (fst (include_evhdlr (mkEvhdlr bound_name EBounds) s)).

(** getNShortestPathCostCoverCutsAdded and getNDisjointPathsCostCoverCutsAdded, cost_cover.cpp:146-154. *)
Definition get_n_cover_cuts (s : scip) (name : string) : res Z :=
  match find_evhdlr s name with
  | Some (ECover o) => Ok (umod (co_added o + co_init o))
  | _ => UB NullDeref
  end.

(** The two numbers of a cost cover handler in getSummaryStatsFromSCIP, algorithms.cpp:83-100; a handler of another class would be
    a null pointer after the cast. *)
Definition summary_cover (s : scip) (name : string) : res (Z * Z) :=
  match find_evhdlr s name with
  | None => Ok (0, 0)%Z
  | Some (ECover o) => Ok (umod (co_added o + co_init o), co_init o)
  | Some _ => UB NullDeref
  end.

(** ** Events *)

(** What SCIP tells event handlers about: nodes, LPs and solutions; with a best solution the upper bound [n/d]
    (cost_cover.cpp:69,80, event_handlers.cpp:77,135). *)
Inductive occurrence :=
| NodeFocused | NodeFeasible | NodeInfeasible | NodeBranched | FirstLpSolved | LpSolved | PoorSolFound | BestSol (n d : Z).

(** The masks SCIP_EVENTTYPE_BESTSOLFOUND, NODEEVENT and LPSOLVED (cost_cover.cpp:69, event_handlers.cpp:77,135). *)
Definition catches (k : ekind) (oc : occurrence) : bool :=
  match k, oc with
  | ECover _, BestSol _ _ => true
  | ENode, (NodeFocused | NodeFeasible | NodeInfeasible | NodeBranched) => true
  | EBounds, LpSolved => true
  | _, _ => false
  end.

(** A solve: [scip_initsol] of all event handlers, events, [scip_exitsol] of all (cost_cover.cpp:68-76,
    event_handlers.cpp:76-84,134-142). *)
Inductive phase := InitSol | Occurs (oc : occurrence) | ExitSol.

(** SCIP while solving: who has caught events, and, to speak about it, who was told what (cost_cover.cpp:68-84,
    event_handlers.cpp:76-97,134-161). *)
Record live := mkLive { lv_scip : scip; lv_subs : list string; lv_log : list (string * occurrence) }.

(** Take out the first entry (SCIPdropEvent with position -1, cost_cover.cpp:74, event_handlers.cpp:82,140). *)
Fixpoint drop_event (name : string) (l : list string) : option (list string) :=
  match l with
  | [] => None
  | x :: l => if String.eqb x name then Some l else option_map (cons x) (drop_event name l)
  end.

(** [scip_exec] of the handler with this name, if the event is in its mask (cost_cover.cpp:79-84, event_handlers.cpp:90-97,148-161;
    the latter two are M_Events). *)
Definition exec (g : graph) (m : nat -> option nat) (root : nat) (oc : occurrence) (lv : live) (name : string) : res live :=
  match find_evhdlr (lv_scip lv) name with
  | None => UB UseAfterFree
  | Some k =>
      if catches k oc then
        let log := lv_log lv ++ [(name, oc)] in
        match k, oc with
        | ECover o, BestSol n d =>
            do ub <- cast_int n d;
            do r <- separate_then_add g m root (co_dist o) ub;
            Ok (mkLive (set_cover (lv_scip lv) name (mkCoverObj (co_dist o) (umod (co_added o + snd r)) (co_init o)) (fst r))
                  (lv_subs lv) log)
        | _, _ => Ok (mkLive (lv_scip lv) (lv_subs lv) log)
        end
      else Ok lv
  end.

(** One phase (cost_cover.cpp:68-84, event_handlers.cpp:76-97,134-161); an entry to drop that is not there is an error. *)
Definition step (g : graph) (m : nat -> option nat) (root : nat) (lv : live) (ph : phase) : res (live * retcode) :=
  match ph with
  | InitSol => Ok (mkLive (lv_scip lv) (lv_subs lv ++ map e_name (sc_evhdlrs (lv_scip lv))) (lv_log lv), Okay)
  | Occurs oc => do lv <- foldM (exec g m root oc) (lv_subs lv) lv; Ok (lv, Okay)
  | ExitSol =>
      Ok (match fold_left (fun o h => match o with Some l => drop_event (e_name h) l | None => None end)
                  (sc_evhdlrs (lv_scip lv)) (Some (lv_subs lv)) with
          | Some l => (mkLive (lv_scip lv) l (lv_log lv), Okay)
          | None => (lv, InvalidData)
          end)
  end.

(** A run stops at the first error (algorithms.cpp:207). *)
Fixpoint run_phases (g : graph) (m : nat -> option nat) (root : nat) (lv : live) (phs : list phase) : res (live * retcode) :=
  match phs with
  | [] => Ok (lv, Okay)
  | ph :: phs =>
      do '(lv, c) <- step g m root lv ph;
      match c with Okay => run_phases g m root lv phs | InvalidData => Ok (lv, InvalidData) end
  end.

(** ** Is the solution right? *)

(** A handler that needs constraints and has none is not asked (cycle_cover.hh:155, subtour_elimination.hh:208). The rows are
    constraints of the handler named linear; presolving, which turns some of them into others, is off (algorithms.cpp:304). *)
Definition active (s : scip) (h : conshdlr) : bool :=
  negb (c_needscons h) || existsb (fun k => String.eqb (k_hdlr k) (c_name h)) (sc_conss s) ||
  (String.eqb (c_name h) "linear" && negb (Nat.eqb (List.length (sc_rows s)) 0)).

(** The value of every variable is at most 10^-6 away from an integer: no variable to branch on (SCIPbranchLP,
    subtour_elimination.cpp:220). *)
Definition lp_integral (n : nat) (x : sol) : bool :=
  forallb (fun v => let r := Z.modulo (s_num x v) (s_den x) in
                    (Z.leb (r * 1000000) (s_den x) || Z.leb ((s_den x - r) * 1000000) (s_den x))%bool) (seq 0 n).

(** [SCIPbranchLP] (subtour_elimination.cpp:220): without a variable to branch on it does not run. *)
Definition branch_lp (n : nat) (x : sol) : scip_result := if lp_integral n x then DidNotRun else Branched.

Section Ask.
(** The gaps are doubles (subtour_elimination.cpp:209,276-294). *)
Context {D : Type}.

(** The call for an LP solution: the number of the node, the gap and the status of the LP (subtour_elimination.cpp:201-217). *)
Record lp_call := mkLpCall { lc_number : Z; lc_gap : D; lc_stat : lp_solstat; lc_sol : sol }.

(** [scip_enfolp] of one handler; [small] compares gaps with the threshold. subtour_elimination.cpp:201-233 is M_Handler;
    cycle_cover.cpp:125-127 leaves the result as SCIP set it, which is SCIP_FEASIBLE; integrality branches if it can; an LP
    solution satisfies the rows of the LP. *)
Definition enfolp_of (small : D -> D -> bool) (g : graph) (entries : list (nat * nat)) (c : lp_call) (gaps : list (list D))
    (h : conshdlr) : res (list (list D) * scip_result) :=
  match c_kind h with
  | KSec disjoint maxflow tailing =>
      do '(gaps, a) <- enfolp (mkHdlr disjoint small maxflow tailing) g entries (lc_number c) (lc_gap c) (lc_stat c) (lc_sol c) gaps;
      Ok (gaps, match a with Says r => r | AsksToBranch => branch_lp (List.length (ge g)) (lc_sol c) end)
  | KCycleCover => Ok (gaps, Feasible)
  | KIntegral =>
      Ok (gaps, match branch_lp (List.length (ge g)) (lc_sol c) with DidNotRun => Feasible | r => r end)
  | KRows => Ok (gaps, Feasible)
  end.

(** What becomes of the LP solution: it is a solution of the problem; it is rejected and nothing was done about it; something was
    done; or SCIP stops with SCIP_INVALIDRESULT (algorithms.cpp:207). *)
Inductive enforced := Accepts | Rejects | Resolves | Invalid.

(** SCIP asks the active handlers in turn until one has done something (algorithms.cpp:207). Only some results are allowed:
    SCIP_DIDNOTRUN and SCIP_DIDNOTFIND are not. *)
Fixpoint enforce (small : D -> D -> bool) (g : graph) (entries : list (nat * nat)) (c : lp_call) (hs : list conshdlr)
    (infeasible : bool) (gaps : list (list D)) : res (list (list D) * enforced) :=
  match hs with
  | [] => Ok (gaps, if infeasible then Rejects else Accepts)
  | h :: hs =>
      do '(gaps, r) <- enfolp_of small g entries c gaps h;
      match r with
      | Feasible => enforce small g entries c hs infeasible gaps
      | Infeasible => enforce small g entries c hs true gaps
      | Branched | Separated | Cutoff => Ok (gaps, Resolves)
      | DidNotRun | DidNotFind => Ok (gaps, Invalid)
      end
  end.

(** See [enforce] (algorithms.cpp:207); [order] is the handlers sorted by enfopriority. *)
Definition enforce_lp (small : D -> D -> bool) (g : graph) (entries : list (nat * nat)) (s : scip) (order : list conshdlr)
    (c : lp_call) (gaps : list (list D)) : res (list (list D) * enforced) :=
  enforce small g entries c (filter (active s) order) false gaps.

(** The LP solutions of a solve, one after the other, with what becomes of them (algorithms.cpp:207). *)
Fixpoint enforce_run (small : D -> D -> bool) (g : graph) (entries : list (nat * nat)) (s : scip) (order : list conshdlr)
    (cs : list lp_call) (gaps : list (list D)) : res (list enforced) :=
  match cs with
  | [] => Ok []
  | c :: cs =>
      do '(gaps, r) <- enforce_lp small g entries s order c gaps;
      do rs <- enforce_run small g entries s order cs gaps;
      Ok (r :: rs)
  end.
End Ask.
Arguments lp_call D : clear implicits.

(** A row holds for the solution (algorithms.cpp:260; without the tolerance of SCIP). *)
Definition row_holds (x : sol) (r : lin) : bool :=
  let v := fold_left (fun a t => a + snd t * s_num x (fst t))%Z (l_terms r) 0%Z in
  (match l_lhs r with None => true | Some a => Z.leb (a * s_den x) v end) &&
  (match l_rhs r with None => true | Some b => Z.leb v (b * s_den x) end).

(** [scip_check] of one handler: subtour_elimination.cpp:170-187, cycle_cover.cpp:111-120; [rows] are those of the problem. *)
Definition check_of (g : graph) (p : list Z) (quota : Z) (root : nat) (entries : list (nat * nat)) (rows : list lin) (x : sol)
    (h : conshdlr) : res bool :=
  match c_kind h with
  | KSec _ _ _ => is_sol_simple_cycle g x entries
  | KCycleCover => do r <- cycle_cover_check g p quota root x; Ok (match r with Feasible => true | _ => false end)
  | KIntegral => Ok (lp_integral (List.length (ge g)) x)
  | KRows => Ok (forallb (row_holds x) rows)
  end.

(** SCIP checks a solution until a handler rejects it; also returned: the names of the handlers that were asked
    (algorithms.cpp:23,207). *)
Fixpoint check_all (g : graph) (p : list Z) (quota : Z) (root : nat) (entries : list (nat * nat)) (rows : list lin) (x : sol)
    (hs : list conshdlr) : res (bool * list string) :=
  match hs with
  | [] => Ok (true, [])
  | h :: hs =>
      do b <- check_of g p quota root entries rows x h;
      if b : bool then
        do '(b, names) <- check_all g p quota root entries rows x hs;
        Ok (b, c_name h :: names)
      else Ok (false, [c_name h])
  end.

(** See [check_all] (algorithms.cpp:23,207); [order] is the handlers sorted by checkpriority. *)
Definition check_solution (g : graph) (p : list Z) (quota : Z) (root : nat) (entries : list (nat * nat)) (s : scip)
    (order : list conshdlr) (x : sol) : res (bool * list string) :=
  check_all g p quota root entries (sc_rows s) x (filter (active s) order).

(** The locks of a row on a variable, from below and from above; [scip_lock] of both handlers sets none
    (subtour_elimination.cpp:248-250, cycle_cover.cpp:140-142; the linear handler of SCIP, algorithms.cpp:260). *)
Definition row_locks (v : nat) (r : lin) : nat * nat :=
  let finite (o : option Z) := match o with Some _ => 1 | None => 0 end in
  fold_left (fun dn t =>
    if Nat.eqb (fst t) v then
      if Z.ltb 0 (snd t) then (fst dn + finite (l_lhs r), snd dn + finite (l_rhs r))
      else if Z.ltb (snd t) 0 then (fst dn + finite (l_rhs r), snd dn + finite (l_lhs r)) else dn
    else dn) (l_terms r) (0, 0).

(** All locks on a variable (see [row_locks], algorithms.cpp:260). *)
Definition locks (v : nat) (rows : list lin) : nat * nat :=
  fold_left (fun dn r => (fst dn + fst (row_locks v r), snd dn + snd (row_locks v r))) rows (0, 0).
