(** * Spec_Lifetime: what reference counts should be *)
From Verif Require Import Base M_ILP M_Lifetime.
Open Scope nat_scope.

(** How many times the constraints hold the variable: a constraint holds the variables that
    stand in it with a coefficient other than zero. *)
Definition holders (rows : list lin) (v : nat) : nat :=
  length (filter (fun t => andb (Nat.eqb (fst t) v) (negb (Z.eqb (snd t) 0))) (flat_map l_terms rows)).

(** Every variable has one reference of the problem and those of the constraints, and every
    constraint one of the problem. *)
Definition owned_by_problem (n : nat) (rows : list lin) (extra : nat) (w : world) : Prop :=
  length (w_vars w) = n /\
  (forall v, v < n -> nth_error (w_vars w) v = Some (1 + holders rows v)) /\
  length (w_conss w) = length rows + extra /\
  Forall (fun k => fst k = 1) (w_conss w).

(** Nothing is left. *)
Definition all_freed (w : world) : Prop :=
  Forall (fun r => r = 0) (w_vars w) /\ Forall (fun k => fst k = 0) (w_conss w).
