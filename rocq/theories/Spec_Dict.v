(** * Spec_Dict: instances given by edge lists and dictionaries *)
From Verif Require Import Base Graph Spec.
Open Scope nat_scope.

(** [g] has exactly the listed edges, in order, and no vertex beyond their end points. *)
Definition graph_of_edges (edges : list (nat * nat)) (g : graph) : Prop :=
  ge g = edges /\
  forall n, gn g <= n <-> Forall (fun e => fst e < n /\ snd e < n) edges.

(** [out] has length [n], and at every index the value of the last entry that is for the index,
    or 0 if no entry is. *)
Definition filled {K : Type} (is_for : K -> nat -> Prop) (entries : list (K * Z)) (n : nat)
    (out : list Z) : Prop :=
  length out = n /\
  forall i z, nth_error out i = Some z ->
    (z = 0%Z /\ forall k y, In (k, y) entries -> ~ is_for k i) \/
    (exists a k b, entries = a ++ (k, z) :: b /\ is_for k i /\
       forall k' y, In (k', y) b -> ~ is_for k' i).
