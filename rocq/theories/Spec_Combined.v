(** * Spec_Combined: trying step sizes in turn *)
From Verif Require Import Base Graph Spec.
Open Scope Z_scope.

(** Extend with step sizes [k], [k+1], ..., [last], each time the tour that came out before,
    until it is good enough; [None] if it never is. *)
Inductive tries (ext : Z -> list nat -> list nat -> Prop) (enough : list nat -> Prop) (last : Z)
  : Z -> list nat -> option (list nat) -> Prop :=
| tries_out : forall k t, last < k -> tries ext enough last k t None
| tries_hit : forall k t t', k <= last -> ext k t t' -> enough t' -> tries ext enough last k t (Some t')
| tries_on : forall k t t' r, k <= last -> ext k t t' -> ~ enough t' ->
    tries ext enough last (k + 1) t' r -> tries ext enough last k t r.

(** Extend the best tour with step size [k], collapse, keep the result if it is cheaper; then
    the same with [k+1], ..., [last]. *)
Inductive rounds (ext : Z -> list nat -> list nat -> Prop) (col : list nat -> list nat -> Prop)
  (cheaper : list nat -> list nat -> Prop) (last : Z) : Z -> list nat -> list nat -> Prop :=
| rounds_out : forall k t, last < k -> rounds ext col cheaper last k t t
| rounds_better : forall k t t1 t2 r, k <= last -> ext k t t1 -> col t1 t2 -> cheaper t2 t ->
    rounds ext col cheaper last (k + 1) t2 r -> rounds ext col cheaper last k t r
| rounds_same : forall k t t1 t2 r, k <= last -> ext k t t1 -> col t1 t2 -> ~ cheaper t2 t ->
    rounds ext col cheaper last (k + 1) t r -> rounds ext col cheaper last k t r.

(** The prize of the closed tour is at least the quota. *)
Definition enough_prize (p : list Z) (quota : Z) (t : list nat) : Prop :=
  exists z, tour_prize p t z /\ quota <= z.

(** [t] costs less than [t']. *)
Definition cheaper_than (g : graph) (c : list Z) (t t' : list nat) : Prop :=
  exists x y, walk_cost g c t x /\ walk_cost g c t' y /\ x < y.
