(** * Properties_NodeStats: reading the statistics of nodes (C27) *)
From Verif Require Import Base M_Stats M_Events M_NodeStats Spec_Stats P_Events P_NodeStats.
Open Scope list_scope.
Open Scope Z_scope.

(** After a run, every number up to the largest can be read; 0, larger numbers and the current node after solving are undefined
    behaviour. *)
Theorem C27_read_range : forall (D : Type) (zero : D) es, scip_events 0 es -> exists st, run_events zero es = Ok st /\
  get_node_stats st None = UB NullDeref /\
  (forall k, 1 <= k <= max_id es -> exists s, get_node_stats st (Some k) = Ok s) /\
  (forall k, (k = 0 \/ max_id es < k) -> k < 4294967296 -> get_node_stats st (Some k) = UB VecOOB).
Proof. intros D zero. exact (read_all zero). Qed.
Print Assumptions C27_read_range.

(** What is read for a node is what its last writing event and the cuts since then say. *)
Theorem C27_read : forall (D : Type) (zero : D) pre (n : node D) post,
  scip_events 0 (pre ++ NodeEvent n :: post) -> writes pre n ->
  (forall post1 m post2, post = post1 ++ NodeEvent m :: post2 -> nd_id m = nd_id n ->
     ~ writes (pre ++ NodeEvent n :: post1) m) ->
  exists st s, run_events zero (pre ++ NodeEvent n :: post) = Ok st /\ get_node_stats st (Some (nd_id n)) = Ok s /\
    entry_of n (u32 (disjoint_at (nd_id n) post)) (u32 (maxflow_at (nd_id n) post)) s.
Proof.
  intros D zero pre n post H W N. destruct (run_last_write zero pre n post H W N) as (st & s & E & R & F).
  exists st, s. split; [exact E|]. split; [|exact F]. apply read_entry; [|exact R].
  clear -H. revert H. generalize 0 as seen. induction pre as [|[m|i k|i k] pre IH]; intros seen H; cbn in H;
    [tauto|destruct H as (_ & _ & H)|destruct H as (_ & H)|destruct H as (_ & H)]; eauto.
Qed.
Print Assumptions C27_read.

(** Example: the root, its second child, then its first. *)
Definition read_run : list (event Z) :=
  [NodeEvent (mkTreeNode 1 None 5 100); IncDisjoint 1 2; NodeEvent (mkTreeNode 3 (Some 1) 6 90); IncMaxflow 3 4;
   NodeEvent (mkTreeNode 2 (Some 1) 7 80)].
Example C27_read_case : scip_events 0 read_run /\ max_id read_run = 3 /\
  exists st, run_events 0 read_run = Ok st /\ get_node_stats st (Some 1) = Ok (mkNode 5 1 2 0 0 0 0 1 100) /\
    get_node_stats st (Some 3) = Ok (mkNode 6 3 0 4 0 0 0 1 90) /\ get_node_stats st (Some 2) = Ok (mkNode 0 0 0 0 0 0 0 0 0) /\
    get_node_stats st (Some 4) = UB VecOOB.
Proof.
  split; [cbn; intuition (try lia; discriminate)|]. split; [reflexivity|]. eexists. split; [vm_compute; reflexivity|].
  repeat split; vm_compute; reflexivity.
Qed.
