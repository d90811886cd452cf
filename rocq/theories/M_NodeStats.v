(** * M_NodeStats: reading the statistics of a node, src/event_handlers.cpp:29-42 *)
From Verif Require Import Base M_Stats M_Events.
Open Scope list_scope.
Open Scope Z_scope.

(** event_handlers.cpp:34-38 [getNodeStats] for a node, and 29-32 for the current node, which is null ([None]) unless SCIP is solving:
    its number, kept as unsigned, less one is the index.  Of 0 the index is 2^32 - 1. *)
Definition get_node_stats {D} (st : list (node_stats D)) (number : option Z) : res (node_stats D) :=
  match number with
  | None => UB NullDeref
  | Some k => vget st (Z.to_nat (u32 (u32 k - 1)))
  end.
