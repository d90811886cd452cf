(** * M_Events: event handlers, src/event_handlers.cpp, and src/algorithms.cpp:70-115 *)
From Verif Require Import Base M_Stats.
Open Scope list_scope.
Open Scope Z_scope.

Section Events.
(** Doubles are opaque; [zero] is the value a value-initialised double has. *)
Context {D : Type} (zero : D).

(** What SCIP answers about the current node (event_handlers.cpp:7-24): [SCIPnodeGetNumber], the number of the parent
    ([None] for a null parent), [SCIPnodeGetLowerbound] and [SCIPgetUpperbound]. *)
Record node := mkTreeNode { nd_id : Z; nd_parent : option Z; nd_lower : D; nd_upper : D }.

(** event_handlers.cpp:11-27 [newStatsForNode]; the number of a null parent is undefined
    behaviour. *)
Definition new_stats_for_node (n : node) : res (node_stats D) :=
  do parent <- (if 1 <? u32 (nd_id n)
                then match nd_parent n with None => UB NullDeref | Some p => Ok (u32 p) end
                else Ok 1);
  Ok (mkNode (nd_lower n) (u32 (nd_id n)) 0 0 0 0 0 parent (nd_upper n)).

(** [NodeStats()]: the elements [resize] adds (event_handlers.cpp:49). *)
Definition no_stats : node_stats D := mkNode zero 0 0 0 0 0 0 0 zero.

(** event_handlers.cpp:44-51 [addCurrentNode].  Node numbers of SCIP start at 1; for a number
    below 1 the index is out of bounds. *)
Definition add_current_node (n : node) (st : list (node_stats D)) : res (list (node_stats D)) :=
  do s <- new_stats_for_node n;
  if nd_id n <? 1 then UB VecOOB
  else
    let st := if Nat.ltb (List.length st) (Z.to_nat (nd_id n))
              then st ++ repeat no_stats (Z.to_nat (nd_id n) - List.length st) else st in
    vset st (Z.to_nat (nd_id n - 1)) s.

(** event_handlers.cpp:90-97 [NodeEventhdlr::scip_exec]. *)
Definition node_event (n : node) (st : list (node_stats D)) : res (list (node_stats D)) :=
  if Z.of_nat (List.length st) <=? nd_id n then add_current_node n st else Ok st.

(** event_handlers.cpp:53-56 [incrementNumSecDisjointTour].  The index is an [unsigned int] in
    the code; simplification: numbers of nodes are below 2^32, so it does not wrap, except for 0
    where it is out of bounds. *)
Definition inc_disjoint (id k : Z) (st : list (node_stats D)) : res (list (node_stats D)) :=
  if id <? 1 then UB VecOOB
  else
    do s <- vget st (Z.to_nat (id - 1));
    vset st (Z.to_nat (id - 1))
      (mkNode (ns_lower s) (ns_id s) (u32 (ns_sec_disjoint s + k)) (ns_sec_maxflow s)
              (ns_cc_disjoint s) (ns_cc_shortest s) (ns_cc_steiner s) (ns_parent s) (ns_upper s)).

(** event_handlers.cpp:58-61 [incrementNumSecMaxflowMincut]. *)
Definition inc_maxflow (id k : Z) (st : list (node_stats D)) : res (list (node_stats D)) :=
  if id <? 1 then UB VecOOB
  else
    do s <- vget st (Z.to_nat (id - 1));
    vset st (Z.to_nat (id - 1))
      (mkNode (ns_lower s) (ns_id s) (ns_sec_disjoint s) (u32 (ns_sec_maxflow s + k))
              (ns_cc_disjoint s) (ns_cc_shortest s) (ns_cc_steiner s) (ns_parent s) (ns_upper s)).

(** The calls of the handler during a run: a node event of SCIP at the current node, or an
    increment by the separation routines (subtour_elimination.cpp:469, 482) at it. *)
Inductive event :=
| NodeEvent (n : node)
| IncDisjoint (id k : Z)
| IncMaxflow (id k : Z).

(** One call (event_handlers.cpp:44-61, see [event]). *)
Definition handle (st : list (node_stats D)) (e : event) : res (list (node_stats D)) :=
  match e with
  | NodeEvent n => node_event n st
  | IncDisjoint id k => inc_disjoint id k st
  | IncMaxflow id k => inc_maxflow id k st
  end.

(** A run from the empty vector of the constructor (event_handlers.hh:19-25). *)
Definition run_events (es : list event) : res (list (node_stats D)) := foldM handle es [].

(** ** BoundsEventHandler *)

(** One LP event: the two readings of the clock in event_handlers.cpp:152 and 159, the bounds
    and the number of the current node. *)
Record lp_event := mkLP { lp_now1 : Z; lp_lower : D; lp_upper : D; lp_node : Z; lp_now2 : Z }.

(** event_handlers.cpp:148-161 [BoundsEventHandler::scip_exec]; the state is the last time
    stamp and the vector of bounds. *)
Definition bounds_event (st : Z * list (bounds D)) (e : lp_event) : Z * list (bounds D) :=
  (lp_now2 e, snd st ++ [mkBounds (fst st) (lp_now1 e) (lp_lower e) (lp_upper e) (u32 (lp_node e))]).

(** The events since the constructor read the clock (event_handlers.hh:85-93). *)
Definition run_bounds (t0 : Z) (es : list lp_event) : Z * list (bounds D) :=
  fold_left bounds_event es (t0, []).

(** algorithms.cpp:70-115 [getSummaryStatsFromSCIP]: the node statistics if the node handler is
    installed, and for the two cost cover handlers the counters (added, added for the initial
    solution) if installed. *)
Definition get_summary_stats (status : Z) (lower upper : D) (nodes : option (list (node_stats D)))
  (spcc dpcc : option (Z * Z)) (cycle_cover nnodes : Z) : summary D :=
  let '(nd, nf) := match nodes with
                   | None => (0, 0)
                   | Some l => (num_disjoint_secs l, num_maxflow_secs l)
                   end in
  let '(sp, sp0) := match spcc with None => (0, 0) | Some p => p end in
  let '(dp, dp0) := match dpcc with None => (0, 0) | Some p => p end in
  mkSummary status lower upper dp sp dp0 sp0 cycle_cover nnodes nd nf.
End Events.
Arguments node D : clear implicits.
Arguments event D : clear implicits.
Arguments lp_event D : clear implicits.
