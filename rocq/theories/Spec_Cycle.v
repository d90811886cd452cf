(** * Spec_Cycle: edge sets, cycles as edge sets, components, linear rows *)
From Coq Require Import Permutation.
From Verif Require Import Base Graph Spec.

(** [trail g w es]: [es] lists one edge per step of the walk [w]. *)
Inductive trail (g : graph) : list nat -> list nat -> Prop :=
| tr_one : forall u, trail g [u] []
| tr_cons : forall u v w e es, joins g e u v -> trail g (v :: w) es -> trail g (u :: v :: w) (e :: es).

(** The edge set [es] (as a list in any order) is exactly one simple cycle; [m = 2] asks for
    at least three vertices, [m = 1] also allows two parallel edges. *)
Definition cycle_edges (g : graph) (m : nat) (es : list nat) : Prop :=
  exists r t es', closed_tour g r m t /\ trail g t es' /\ Permutation es es'.

(** [u] and [v] are in the same connected component. *)
Inductive connected (g : graph) : nat -> nat -> Prop :=
| conn_refl : forall u, connected g u u
| conn_step : forall u v w, connected g u v -> is_edge g v w -> connected g u w.
