(** * Spec_Cover: shortest walks and cover inequalities *)
From Verif Require Import Base Graph Spec.
Open Scope Z_scope.

(** [w] leads from [s] to [v]. *)
Definition leads (s v : nat) (w : list nat) : Prop := hd_error w = Some s /\ last w s = v.

(** [d] is the least cost of a walk from [s] to [v]. *)
Definition distance (g : graph) (c : list Z) (s v : nat) (d : Z) : Prop :=
  (exists w, leads s v w /\ any_cost g c w d) /\
  (forall w z, leads s v w -> any_cost g c w z -> d <= z).

(** [dist] bounds from below the cost of every closed tour from [root] through the vertex. *)
Definition tour_bounds (g : graph) (c : list Z) (root : nat) (dist : list Z) : Prop :=
  forall t z v d, tour_from g root t -> any_cost g c t z -> In v t ->
    nth_error dist v = Some d -> d <= z.
