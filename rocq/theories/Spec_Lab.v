(** * Spec_Lab: what batches and the vial filters should do *)
From Verif Require Import Base M_Lab.
Open Scope Z_scope.

(** The least integer [k] with [n <= k * b]. *)
Definition is_ceiling (n b k : Z) : Prop := (k - 1) * b < n /\ n <= k * b.

(** [sub] consists of the entries of [l] that satisfy [P], in the same order. *)
Inductive selected {A} (P : A -> Prop) : list A -> list A -> Prop :=
| sel_nil : selected P [] []
| sel_keep : forall a l sub, P a -> selected P l sub -> selected P (a :: l) (a :: sub)
| sel_drop : forall a l sub, ~ P a -> selected P l sub -> selected P (a :: l) sub.

(** There is no readable result of the vial. *)
Definition without_result (st : nat -> result_file) (v : vial) : Prop :=
  st (v_uuid v) = NoFile \/ st (v_uuid v) = NotJson.

(** There is a result and its prize is below the quota. *)
Definition result_below_quota (st : nat -> result_file) (v : vial) : Prop :=
  exists p, st (v_uuid v) = ResultFile p /\ p < v_quota v.
