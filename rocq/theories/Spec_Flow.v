(** * Spec_Flow: reachability, flows and cuts in networks *)
From Verif Require Import Base Graph Spec M_MaxFlow.
Open Scope nat_scope.

(** The arcs end in the network, and there is a weight for every arc. *)
Definition net_ok (d : net) : Prop :=
  Forall (fun a => a_src a < n_size d /\ a_dst a < n_size d) (n_arcs d).

(** There is an arc of positive weight from [u] to [v]. *)
Definition pos_arc (d : net) (w : list Z) (u v : nat) : Prop :=
  exists i a x, nth_error (n_arcs d) i = Some a /\ a_src a = u /\ a_dst a = v /\
    nth_error w i = Some x /\ (0 < x)%Z.

Inductive dreach (d : net) (w : list Z) (s : nat) : nat -> Prop :=
| dr_refl : dreach d w s s
| dr_step : forall u v, dreach d w s u -> pos_arc d w u v -> dreach d w s v.

(** Arc [a_rev] goes the other way and back again. *)
Definition paired (d : net) : Prop :=
  forall i a, nth_error (n_arcs d) i = Some a ->
    exists b, nth_error (n_arcs d) (a_rev a) = Some b /\ a_rev b = i /\
      a_src b = a_dst a /\ a_dst b = a_src a /\ a_rev a <> i.

(** Sum of [f i a] over the arcs [a] with number [i] that satisfy [P]. *)
Fixpoint arc_sum (P : arc -> bool) (f : nat -> arc -> Z) (i : nat) (l : list arc) : Z :=
  match l with
  | [] => 0
  | a :: l => (if P a then f i a else 0) + arc_sum P f (S i) l
  end.

(** The flow on arc [i] that leaves the residual capacities [r]. *)
Definition on_arc (r : list Z) (i : nat) (a : arc) : Z := (a_cap a - nth i r 0)%Z.

(** Net flow out of [v]. *)
Definition outflow (d : net) (r : list Z) (v : nat) : Z :=
  arc_sum (fun a => Nat.eqb (a_src a) v) (on_arc r) 0 (n_arcs d).

(** [r] are the residual capacities of a flow from [s] to [t] of value [z]: none is negative,
    opposite arcs carry opposite flows, and all flow is passed on at the other vertices. *)
Definition flow_of (d : net) (s t : nat) (z : Z) (r : list Z) : Prop :=
  length r = length (n_arcs d) /\ Forall (fun x => 0 <= x)%Z r /\
  (forall i a b, nth_error (n_arcs d) i = Some a -> nth_error (n_arcs d) (a_rev a) = Some b ->
     on_arc r (a_rev a) b = (- on_arc r i a)%Z) /\
  (forall v, v <> s -> v <> t -> outflow d r v = 0%Z) /\ outflow d r t = (- z)%Z.

Definition max_flow (d : net) (s t : nat) (z : Z) (r : list Z) : Prop :=
  flow_of d s t z r /\ forall z' r', flow_of d s t z' r' -> (z' <= z)%Z.

(** Capacity of the arcs from [R] to the rest. *)
Definition cut_capacity (d : net) (R : list nat) : Z :=
  arc_sum (fun a => andb (memb (a_src a) R) (negb (memb (a_dst a) R))) (fun _ a => a_cap a) 0 (n_arcs d).

(** ** cuts of points *)

(** Exactly one end point lies in [S]. *)
Definition crosses (S : list nat) (p : nat * nat) : bool := xorb (memb (fst p) S) (memb (snd p) S).

(** Sum of [x] over the edges that satisfy [P]; the edges in [l] are numbered from [i]. *)
Fixpoint edge_sum (P : nat * nat -> bool) (x : nat -> Z) (i : nat) (l : list (nat * nat)) : Z :=
  match l with
  | [] => 0
  | p :: l => (if P p then x i else 0) + edge_sum P x (S i) l
  end.

(** Value of the edges with one end in [S]; of the edges that leave [v]. *)
Definition cut_value (g : graph) (x : nat -> Z) (S : list nat) : Z := edge_sum (crosses S) x 0 (ge g).
Definition degree_at (g : graph) (x : nat -> Z) (v : nat) : Z := cut_value g x [v].

(** Every vertex has degree twice the value of its self loop. *)
Definition degrees_two (g : graph) (x : nat -> Z) : Prop :=
  forall v l, joins g l v v -> degree_at g x v = (2 * x l)%Z.
