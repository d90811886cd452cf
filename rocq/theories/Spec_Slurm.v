(** * Spec_Slurm: what the tasks of a script should do *)
From Verif Require Import Base M_Lab.
Open Scope Z_scope.

(** The number [fst x * 2 ^ snd x] is [a / b]. *)
Definition is_fraction (x : Z * Z) (a b : Z) : Prop :=
  0 < b /\ fst x * 2 ^ Z.max 0 (snd x) * b = a * 2 ^ Z.max 0 (- snd x).

(** Each of the vials has the result of its run or, if the run failed, the file it had; no other file changed. *)
Definition ran (solve : vial -> option Z) (vials : list vial) (before after : nat -> result_file) : Prop :=
  (forall v, In v vials ->
     after (v_uuid v) = match solve v with Some p => ResultFile p | None => before (v_uuid v) end) /\
  (forall u, ~ In u (map v_uuid vials) -> after u = before u).

(** [x] is the last entry of [l] that satisfies [P]. *)
Definition last_with {A} (P : A -> Prop) (l : list A) (x : A) : Prop :=
  exists l1 l2, l = (l1 ++ x :: l2)%list /\ P x /\ forall y, In y l2 -> ~ P y.
