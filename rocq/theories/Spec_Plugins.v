(** * Spec_Plugins: what SCIP should hold, whom it tells, and what becomes of a solution *)
From Coq Require Import String Permutation Sorting.Sorted.
From Verif Require Import Base Graph Spec Spec_Cycle M_Solution M_ILP M_Subtour M_CostCover M_Handler M_Solve M_Plugins Spec_ILP
  Spec_Handler.
Open Scope string_scope.
Open Scope list_scope.
Open Scope nat_scope.

(** ** Before solving *)

(** SCIP as it is created. *)
Definition fresh : scip := mkScip [] [] [] [].

(** The constraint handlers of SCIP that a call with the options [o] asks for. *)
Definition of_scip (defaults : list conshdlr) (o : options) : list conshdlr :=
  if po_simple o
  then [mkConshdlr "linear" 100000 (-1000000) (-1000000) 0 1 100 (-1) false false true KRows;
        mkConshdlr "integral" 0 0 0 (-1) (-1) (-1) 0 false false false KIntegral;
        mkConshdlr "knapsack" 600000 (-600000) (-600000) 0 1 100 (-1) false false true KRows;
        mkConshdlr "varbound" 900000 (-500000) (-500000) 0 1 100 (-1) false false true KRows]
  else defaults.

(** Those of this code. *)
Definition of_this_code (o : options) : list conshdlr :=
  mkConshdlr "pctsp_sec_handler" 1000000 1000000 (-2000000) (po_sepafreq o) (-1) 1 0 false false false
    (KSec (fl_sec_disjoint (po_flags o)) (fl_sec_maxflow (po_flags o)) (po_tailing o)) ::
  (if fl_cycle_cover (po_flags o)
   then [mkConshdlr "Cycle cover" 1000000 (-2000000) (-2000000) 1 (-1) 1 0 false false true KCycleCover] else []).

(** All of them. *)
Definition wanted_conshdlrs (defaults : list conshdlr) (o : options) : list conshdlr := of_scip defaults o ++ of_this_code o.

(** The constraints of these handlers: not in the first LP, global, and everything else on except what concerns columns. *)
Definition wanted_conss (o : options) : list hcons :=
  let flags := [false; true; true; true; true; false; false; false; true; false] in
  mkCons "subtour-constraint" "pctsp_sec_handler" flags ::
  (if fl_cycle_cover (po_flags o) then [mkCons "cycle_cover_" "Cycle cover" flags] else []).

(** A cost cover handler, if there is one. *)
Definition cover_handler (name : string) (h : option cover_hdlr) : list evhdlr :=
  match h with
  | Some h => [mkEvhdlr name (ECover (mkCoverObj (ch_dist h) (ch_added h) (ch_init h)))]
  | None => []
  end.

(** All SCIP holds after a call with the options [o] for the model [m]; [b] is what the cost cover handlers start with. *)
Definition wanted (defaults : list conshdlr) (o : options) (m : ilp) (b : bc) : scip :=
  mkScip (wanted_conshdlrs defaults o)
    (cover_handler "Disjoint paths cost cover" (b_dp b) ++ cover_handler "Shortest path cost cover" (b_sp b) ++
     [mkEvhdlr "pctsp_node_handler" ENode; mkEvhdlr "pctsp_bound_handler" EBounds])
    (wanted_conss o) (i_cons m ++ opt_rows (b_dp b) ++ opt_rows (b_sp b)).

(** A frequency that SCIP takes. *)
Definition frequency (f : Z) : Prop := (-1 <= f <= 65534)%Z.

(** A handler whose parameters SCIP takes. *)
Definition in_range (h : conshdlr) : Prop :=
  frequency (c_sepafreq h) /\ frequency (c_propfreq h) /\ frequency (c_eagerfreq h) /\ (-1 <= c_maxprerounds h)%Z.

(** SCIP's own handlers have names of their own, and parameters that it takes. *)
Definition good_defaults (defaults : list conshdlr) : Prop :=
  Forall in_range defaults /\ NoDup (map c_name defaults) /\ ~ In "pctsp_sec_handler" (map c_name defaults) /\ ~ In "Cycle cover" (map c_name defaults).

(** The handler that has the name in a list. *)
Definition named (l : list conshdlr) (name : string) (h : conshdlr) : Prop :=
  exists l1 l2, l = l1 ++ h :: l2 /\ c_name h = name /\ ~ In name (map c_name l1).

(** The event handler that has the name. *)
Definition ev_named (l : list evhdlr) (name : string) (k : ekind) : Prop :=
  exists l1 l2, l = l1 ++ mkEvhdlr name k :: l2 /\ ~ In name (map e_name l1).

(** What stays of an event handler when a problem is set up again: all but the number of rows for the first solution. *)
Definition stays (k k' : ekind) : Prop :=
  match k, k' with
  | ECover o, ECover o' => co_dist o' = co_dist o /\ co_added o' = co_added o
  | ENode, ENode | EBounds, EBounds => True
  | _, _ => False
  end.

(** The distances a cost cover handler works with: those given unless there was a handler already. *)
Definition distances_of (s : scip) (name : string) (given d : list Z) : Prop :=
  (exists o, ev_named (sc_evhdlrs s) name (ECover o) /\ d = co_dist o) \/
  (~ In name (map e_name (sc_evhdlrs s)) /\ d = given).

(** The handlers [l] of SCIP that come to those in [old]: SCIP includes its default ones up to the first that is there already. *)
Definition comes (defaults : list conshdlr) (o : options) (old l : list conshdlr) : Prop :=
  (po_simple o = true /\ l = of_scip defaults o) \/
  (po_simple o = false /\ exists rest, defaults = l ++ rest /\ (forall h, In h l -> ~ In (c_name h) (map c_name old)) /\
    (rest = [] \/ exists h rest', rest = h :: rest' /\ In (c_name h) (map c_name old))).

(** The rows [r] that a cost cover handler adds when a problem is set up, with the distances [d] of the handler, and the number it
    keeps. *)
Definition first_rows (m : ilp) (root : nat) (ub : Z) (s s' : scip) (on : bool) (name : string) (given : list Z) (r : list lin)
    : Prop :=
  if andb on (Z.ltb 0 ub)
  then exists o, ev_named (sc_evhdlrs s') name (ECover o) /\ distances_of s name given (co_dist o) /\
         separate_then_add (i_graph m) (var_map (i_graph m)) root (co_dist o) ub = Ok (r, co_init o)
  else r = [].

(** ** Events *)

(** Which handler wants to know what. *)
Inductive wants : ekind -> occurrence -> Prop :=
| wants_best o n d : wants (ECover o) (BestSol n d)
| wants_focused : wants ENode NodeFocused
| wants_feasible : wants ENode NodeFeasible
| wants_infeasible : wants ENode NodeInfeasible
| wants_branched : wants ENode NodeBranched
| wants_lp : wants EBounds LpSolved.

(** A solve with its events, or an event between two. *)
Inductive block := Solve (ocs : list occurrence) | Between (oc : occurrence).

(** The phases of the blocks. *)
Definition phases_of (bs : list block) : list phase :=
  flat_map (fun b => match b with
                     | Solve ocs => InitSol :: map Occurs ocs ++ [ExitSol]
                     | Between oc => [Occurs oc]
                     end) bs.

(** The events during solves. *)
Definition inside (bs : list block) : list occurrence :=
  flat_map (fun b => match b with Solve ocs => ocs | Between _ => [] end) bs.

(** [l'] is the elements of [l] with [P], in order. *)
Inductive picked {A} (P : A -> Prop) : list A -> list A -> Prop :=
| picked_nil : picked P [] []
| picked_yes x l l' : P x -> picked P l l' -> picked P (x :: l) (x :: l')
| picked_no x l l' : ~ P x -> picked P l l' -> picked P (x :: l) l'.

(** What handler [name] was told according to a log. *)
Definition heard (name : string) (log : list (string * occurrence)) : list occurrence :=
  map snd (filter (fun x => String.eqb (fst x) name) log).

(** The upper bounds at the best solutions. *)
Definition bounds_of (ocs : list occurrence) : list (Z * Z) :=
  flat_map (fun oc => match oc with BestSol n d => [(n, d)] | _ => [] end) ocs.

(** A handler before and after the upper bounds [nds], and the rows it added meanwhile: a cost cover handler did what
    [cover_exec] does for each, the others nothing. *)
Inductive did (g : graph) (m : nat -> option nat) (root : nat) (nds : list (Z * Z)) : evhdlr -> evhdlr -> list lin -> Prop :=
| did_cover name o h : foldM (cover_exec g m root) nds (mkCover (co_dist o) (co_added o) (co_init o) []) = Ok h ->
    did g m root nds (mkEvhdlr name (ECover o)) (mkEvhdlr name (ECover (mkCoverObj (ch_dist h) (ch_added h) (ch_init h)))) (ch_rows h)
| did_node name : did g m root nds (mkEvhdlr name ENode) (mkEvhdlr name ENode) []
| did_bounds name : did g m root nds (mkEvhdlr name EBounds) (mkEvhdlr name EBounds) [].

(** ** Solutions *)

(** The handlers in an order of falling priority. *)
Definition by_priority (key : conshdlr -> Z) (l order : list conshdlr) : Prop :=
  Permutation l order /\ StronglySorted (fun a b => (key b <= key a)%Z) order.

(** The variable of each edge is within 10^-6 of an integer. *)
Definition near_integers (g : graph) (x : sol) : Prop :=
  forall e, e < List.length (ge g) -> exists z, (Z.abs (s_num x e - z * s_den x) * 1000000 <= s_den x)%Z.

(** The calls of the subtour handler that belong to the LP solutions. *)
Definition as_calls {D} (cs : list (lp_call D)) : list (@hcall D) :=
  map (fun c => EnfoLp (lc_number c) (lc_gap c) (lc_stat c) (lc_sol c)) cs.

(** What becomes of the LP solution [c] after those in [before]: SCIP stops if it is integral but not one cycle, the LP is solved
    and the gaps have stalled. *)
Definition outcome {D} (small : D -> D -> bool) (k : Z) (g : graph) (before : list (lp_call D)) (c : lp_call D) (r : enforced) : Prop :=
  let x := lc_sol c in
  exists l, rejected g (lc_number c) (as_calls before) l /\
    let stuck := stalled small k (l ++ [lc_gap c]) /\ (lc_stat c = LpOptimal \/ lc_stat c = LpUnboundedRay) in
    (r = Accepts /\ near_integers g x /\ on_one_cycle g x) \/
    (r = Resolves /\ ~ near_integers g x) \/
    (r = Rejects /\ near_integers g x /\ ~ on_one_cycle g x /\ ~ stuck) \/
    (r = Invalid /\ near_integers g x /\ ~ on_one_cycle g x /\ stuck).

(** All of them. *)
Inductive outcomes {D} (small : D -> D -> bool) (k : Z) (g : graph) : list (lp_call D) -> list (lp_call D) -> list enforced -> Prop :=
| outcomes_nil before : outcomes small k g before [] []
| outcomes_cons before c cs r rs : outcome small k g before c r -> outcomes small k g (before ++ [c]) cs rs ->
    outcomes small k g before (c :: cs) (r :: rs).

(** The node numbers fit and the values have a denominator. *)
Definition lp_ok {D} (c : lp_call D) : Prop := (0 < s_den (lc_sol c))%Z /\ (0 <= lc_number c < int_max)%Z.

(** The same point with another value for one variable. *)
Definition moved (x : sol) (v : nat) (a : Z) : sol := mkSol (s_den x) (fun i => if Nat.eqb i v then a else s_num x i).
