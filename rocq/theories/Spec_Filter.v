(** * Spec_Filter: what a view of a graph should show *)
From Coq Require Import Sorting.Sorted.
From Verif Require Import Base Graph Spec.
Open Scope nat_scope.

(** The mark of a vertex. *)
Definition marked (mark : list bool) (v : nat) : Prop := nth_error mark v = Some true.

(** The edge [e] joins two marked vertices. *)
Definition induced_edge (g : graph) (mark : list bool) (e : nat) : Prop := exists u v, joins g e u v /\ marked mark u /\ marked mark v.

(** The number of edges that join [u] and [v], counted from the list of the neighbours of [u]: two for a loop. *)
Definition times (v : nat) (l : list nat) : nat := count_occ Nat.eq_dec l v.
