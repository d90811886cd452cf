(** * Spec_ILP: points, rows and incidence vectors *)
From Coq Require Import Permutation.
From Verif Require Import Base Graph Spec Spec_Cycle M_Solution M_ILP.
Open Scope Z_scope.

(** Value of a linear form at the point [x]. *)
Fixpoint lin_value (x : nat -> Z) (ts : list (nat * Z)) : Z :=
  match ts with [] => 0 | (v, a) :: ts => a * x v + lin_value x ts end.

(** The point [s_num/s_den] satisfies [lhs <= a x <= rhs] (multiplied by [s_den > 0]). *)
Definition row_sat (s : sol) (r : lin) : Prop :=
  (forall a, l_lhs r = Some a -> a * s_den s <= lin_value (s_num s) (l_terms r)) /\
  (forall b, l_rhs r = Some b -> lin_value (s_num s) (l_terms r) <= b * s_den s).

(** Every edge and self-loop variable has value 0 or 1. *)
Definition binary (g : graph) (s : sol) : Prop :=
  0 < s_den s /\
  forall e, (e < length (ge g))%nat -> s_num s e = 0 \/ s_num s e = s_den s.

(** [s] is the incidence vector of the closed tour [t]: value 1 on one edge per step and on
    the self loops of the visited vertices, 0 elsewhere. *)
Definition incidence (g : graph) (t : list nat) (s : sol) : Prop :=
  binary g s /\
  exists es, trail g t es /\
    forall e, (e < length (ge g))%nat ->
      (s_num s e = s_den s <-> In e es \/ exists v, In v t /\ joins g e v v).

(** Every vertex has a self loop / no vertex has one. *)
Definition all_loops (g : graph) : Prop := forall v, (v < gn g)%nat -> is_edge g v v.
Definition loop_free (g : graph) : Prop := forall v, ~ is_edge g v v.

(** Self loops cost nothing. *)
Definition loops_cost_zero (g : graph) (c : list Z) : Prop :=
  forall e v, joins g e v v -> nth_error c e = Some 0.

(** The (edge, variable) pairs of the edge-variable map in some order. *)
Definition var_entries (g : graph) (entries : list (nat * nat)) : Prop :=
  Permutation entries (map (fun e => (e, e)) (seq 0 (length (ge g)))).

(** The quota is met by the prize of the tour. *)
Definition meets_quota (p : list Z) (quota : Z) (t : list nat) : Prop :=
  exists z, tour_prize p t z /\ quota <= z.
