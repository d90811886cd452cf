(** * Spec_Branching: which branching rule the solver calls first *)
From Verif Require Import Base M_Branching.
Open Scope Z_scope.

(** A branching rule may be called at a depth of the tree. *)
Definition usable (depth : Z) (r : rule) : Prop := r_maxdepth r = -1 \/ depth <= r_maxdepth r.

(** The rule called first at this depth: all other usable rules have smaller priority. *)
Definition first_choice (rules : list rule) (depth : Z) (r : rule) : Prop :=
  In r rules /\ usable depth r /\
  forall r', In r' rules -> usable depth r' -> r_name r' <> r_name r -> r_priority r' < r_priority r.

(** Same rules, in the same order, with the same depth limits. *)
Definition same_rules (l l' : list rule) : Prop :=
  Forall2 (fun r r' => r_name r' = r_name r /\ r_maxdepth r' = r_maxdepth r) l l'.
