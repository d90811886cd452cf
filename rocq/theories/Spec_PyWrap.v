(** * Spec_PyWrap: what a Python caller means by a graph with attributes, and what it means
    that a call reaches the C++ function *)
From Verif Require Import Base Graph Spec Spec_Rename Spec_Python.
Open Scope nat_scope.

(** Attribute value, 0 if there is none. *)
Definition attr (o : option Z) : Z := match o with Some x => x | None => 0%Z end.

(** [G] has each edge of the dictionary of neighbours once; [c] and [p] are the attributes. *)
Definition same_graph (g : list (nat * list nat)) (cost : nat -> nat -> option Z) (prize : nat -> option Z)
  (G : graph) (c p : list Z) : Prop :=
  graph_ok G /\ no_parallel G /\ (forall u v, is_edge G u v <-> adj g u v) /\
  length c = length (ge G) /\
  (forall e u v, nth_error (ge G) e = Some (u, v) -> nth_error c e = Some (attr (cost u v))) /\
  length p = gn G /\ (forall v, vertex g v -> nth_error p v = Some (attr (prize v))).

(** All attributes are C++ integers. *)
Definition attributes_fit (cost : nat -> nat -> option Z) (prize : nat -> option Z) : Prop :=
  (forall u v, (int_min <= attr (cost u v) <= int_max)%Z) /\ (forall v, (int_min <= attr (prize v) <= int_max)%Z).

(** Every vertex has a neighbour. *)
Definition no_isolated (g : list (nat * list nat)) : Prop := forall v, vertex g v -> exists u, adj g v u.

(** [g], [q] are [G], [p] with every vertex replaced by its position in [labels]. *)
Definition relabelled (labels : list nat) (g : graph) (q : list Z) (G : graph) (p : list Z) : Prop :=
  NoDup labels /\ gn g = length labels /\ renamed labels (ends (ge g)) (ends (ge G)) /\
  (forall a u, nth_error labels a = Some u -> nth_error q a = nth_error p u).

(** The outer call behaves as the inner one, with the result relabelled. *)
Definition reaches (labels : list nat) (inner outer : res (list nat)) : Prop :=
  match inner with
  | Ok t => forall T, renamed labels t T -> outer = Ok T
  | Throw e => outer = Throw e
  | UB u => outer = UB u
  | OutOfFuel => outer = OutOfFuel
  end.

Definition fits_int (z : Z) : Prop := (int_min <= z <= int_max)%Z.

(** Sums of costs and of prizes of [n] vertices do not overflow. *)
Definition small_numbers (n : nat) (C P : Z) : Prop :=
  (0 <= C)%Z /\ (0 <= P)%Z /\ (Z.of_nat n <= int_max)%Z /\
  (2 * (Z.of_nat (S n) * C) <= int_max)%Z /\ (3 * C <= int_max)%Z /\ (3 * (Z.of_nat (S n) * P) <= int_max)%Z.
