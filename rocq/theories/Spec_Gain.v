(** * Spec_Gain: what a best insertion is. *)
From Verif Require Import Base Graph Spec M_Float.
From Coq Require Import SpecFloat Sorted.
Open Scope nat_scope.

(** [x] is the unitary gain of putting [v] between the neighbours [u] and [w]: its prize
    divided by the increase of the cost, in binary32. *)
Definition insertion_gain (g : graph) (c p : list Z) (u v w : nat) (x : float32) : Prop :=
  exists e1 e2 e3 c1 c2 c3 q,
    step_edge g u v e1 /\ step_edge g v w e2 /\ step_edge g u w e3 /\
    nth_error c e1 = Some c1 /\ nth_error c e2 = Some c2 /\ nth_error c e3 = Some c3 /\
    nth_error p v = Some q /\ x = f_div (f_of_int q) (f_of_int (c1 + c2 - c3)%Z).

(** The same for a new vertex [v] and position [i] of the tour. *)
Definition gain_at (g : graph) (c p : list Z) (t : list nat) (v i : nat) (x : float32) : Prop :=
  v < gn g /\ ~ In v t /\
  exists u w, nth_error t i = Some u /\ nth_error t (S i) = Some w /\ insertion_gain g c p u v w x.

(** Inserting [v] after position [i] has positive gain [x], no insertion has more, and it
    is the first such in the order of vertices, then positions. *)
Definition best_gain (g : graph) (c p : list Z) (t : list nat) (v i : nat) (x : float32) : Prop :=
  gain_at g c p t v i x /\ f_lt f_zero x = true /\
  forall v' i' x', gain_at g c p t v' i' x' ->
    f_lt x x' = false /\
    ((v' < v \/ v' = v /\ i' < i) -> x' <> S754_nan -> f_lt x' x = true).

(** [k] best insertions, each allowed by [ok tour gain], lead from [t] to [t']. *)
Inductive gain_steps (g : graph) (c p : list Z) (ok : list nat -> float32 -> Prop)
  : nat -> list nat -> list nat -> Prop :=
| gs_done : forall t, gain_steps g c p ok 0 t t
| gs_step : forall k A B v x t',
    best_gain g c p (A ++ B) v (length A - 1) x -> ok (A ++ B) x -> 1 <= length A ->
    gain_steps g c p ok k (A ++ v :: B) t' -> gain_steps g c p ok (S k) (A ++ B) t'.

(** The largest positive gain of inserting [v], 0 if there is none. *)
Definition max_gain (g : graph) (c p : list Z) (t : list nat) (v : nat) (x : float32) : Prop :=
  (forall i y, gain_at g c p t v i y -> f_lt x y = false) /\
  (x = f_zero \/ f_lt f_zero x = true /\ exists i, gain_at g c p t v i x).

(** [a] is the average over all vertices [vs] outside the tour (listed in increasing
    order) of their largest gains, in binary32. *)
Definition average_gain (g : graph) (c p : list Z) (t : list nat) (a : float32) : Prop :=
  exists vs xs, StronglySorted lt vs /\ (forall v, In v vs <-> v < gn g /\ ~ In v t) /\
    Forall2 (max_gain g c p t) vs xs /\
    a = f_div (fold_left f_add xs f_zero) (f_of_int (Z.of_nat (length xs))).

(** [t] is [t'] with some elements left out. *)
Inductive subseq : list nat -> list nat -> Prop :=
| ss_nil : subseq [] []
| ss_keep : forall x a b, subseq a b -> subseq (x :: a) (x :: b)
| ss_skip : forall x a b, subseq a b -> subseq a (x :: b).
