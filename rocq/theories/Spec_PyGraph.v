(** * Spec_PyGraph: what maps filled from Python objects have to hold *)
From Verif Require Import Base Graph Spec.
Open Scope nat_scope.

(** A number fits an int. *)
Definition fits (z : Z) : Prop := (-2147483648 <= z <= 2147483647)%Z.

(** [q] is [p] after the assignments [l] of values to places, the last one to a place being the one that counts. *)
Definition assigned (p : list Z) (l : list (nat * Z)) (q : list Z) : Prop :=
  length q = length p /\
  (forall before i z after, l = before ++ (i, z) :: after -> ~ In i (map fst after) -> nth_error q i = Some z) /\
  (forall i, ~ In i (map fst l) -> nth_error q i = nth_error p i).

(** The entries of a dict of costs, and the places of the edges they are about: of parallel edges the first. *)
Definition cost_places (g : graph) (d : list ((nat * nat) * Z)) (l : list (nat * Z)) : Prop :=
  Forall2 (fun kv iz => step_edge g (fst (fst kv)) (snd (fst kv)) (fst iz) /\ snd iz = snd kv) d l.

(** A dict with the names of Python and one with the positions of these names in [labels]. *)
Definition same_prizes (labels : list nat) (d d' : list (nat * Z)) : Prop :=
  Forall2 (fun kv kv' => nth_error labels (fst kv') = Some (fst kv) /\ snd kv' = snd kv) d d'.
Definition same_costs (labels : list nat) (d d' : list ((nat * nat) * Z)) : Prop :=
  Forall2 (fun kv kv' => nth_error labels (fst (fst kv')) = Some (fst (fst kv)) /\
                         nth_error labels (snd (fst kv')) = Some (snd (fst kv)) /\ snd kv' = snd kv) d d'.
