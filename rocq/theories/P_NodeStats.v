(** * P_NodeStats: proofs about reading statistics *)
From Verif Require Import Base P_Base M_Stats M_Events M_NodeStats Spec_Stats P_Stats P_Events.
Open Scope list_scope.
Open Scope Z_scope.

Section N.
Context {D : Type} (zero : D).

Lemma max_id_bound (es : list (event D)) seen : scip_events seen es -> 0 <= seen < 4294967296 -> max_id es < 4294967296.
Proof.
  revert seen. induction es as [|[n|i k|i k] es IH]; intros seen H B; cbn in *; try lia.
  - destruct H as (R & _ & H). specialize (IH _ H). lia.
  - destruct H as (R & H). specialize (IH _ H). lia.
  - destruct H as (R & H). specialize (IH _ H). lia.
Qed.

Lemma vget_some {A} (l : list A) i a : nth_error l i = Some a -> vget l i = Ok a.
Proof. intros H. unfold vget. now rewrite H. Qed.

Lemma read_entry st (k : Z) (s : node_stats D) : 1 <= k < 4294967296 -> nth_error st (Z.to_nat (k - 1)) = Some s ->
  get_node_stats st (Some k) = Ok s.
Proof. intros R H. unfold get_node_stats. rewrite !u32_small by (rewrite ?u32_small; lia). now apply vget_some. Qed.

Lemma read_all (es : list (event D)) : scip_events 0 es -> exists st, run_events zero es = Ok st /\
  get_node_stats st None = UB NullDeref /\
  (forall k, 1 <= k <= max_id es -> exists s, get_node_stats st (Some k) = Ok s) /\
  (forall k, (k = 0 \/ max_id es < k) -> k < 4294967296 -> get_node_stats st (Some k) = UB VecOOB).
Proof.
  intros H. destruct (run_ok zero es H) as (st & E & L). pose proof (max_id_bound es 0 H ltac:(lia)) as B.
  assert (B0 : 0 <= max_id es) by (clear; induction es as [|[n|i k|i k] es IH]; cbn; lia).
  exists st. split; [exact E|]. split; [reflexivity|]. split.
  - intros k R. destruct (nth_error st (Z.to_nat (k - 1))) as [s|] eqn:N.
    + exists s. apply read_entry; [lia|exact N].
    + apply nth_error_None in N. rewrite L in N. lia.
  - intros k R U. unfold get_node_stats, vget.
    replace (nth_error st (Z.to_nat (u32 (u32 k - 1)))) with (@None (node_stats D)); [reflexivity|]. symmetry. apply nth_error_None. rewrite L.
    destruct R as [->|R].
    + change (u32 (u32 0 - 1)) with 4294967295. lia.
    + rewrite !u32_small by (rewrite ?u32_small; lia). lia.
Qed.
End N.
