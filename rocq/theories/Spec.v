(** * Spec: the vocabulary of the specifications.

    Plain mathematics about graphs; independent of how the code computes. *)
From Verif Require Import Base Graph.

(** Edge [e] of [g] joins [u] and [v]. *)
Definition joins (g : graph) (e u v : nat) : Prop :=
  nth_error (ge g) e = Some (u, v) \/ nth_error (ge g) e = Some (v, u).

Definition is_edge (g : graph) (u v : nat) : Prop := exists e, joins g e u v.

(** All edge end points are vertices. *)
Definition graph_ok (g : graph) : Prop :=
  forall a b, In (a, b) (ge g) -> a < gn g /\ b < gn g.

(** No two edges join the same pair of vertices. *)
Definition no_parallel (g : graph) : Prop :=
  forall e f u v, joins g e u v -> joins g f u v -> e = f.

(** The edge a step of a walk uses: with parallel edges, the one inserted first. *)
Definition step_edge (g : graph) (u v e : nat) : Prop :=
  joins g e u v /\ forall f, joins g f u v -> e <= f.

(** Consecutive vertices are adjacent. *)
Inductive is_walk (g : graph) : list nat -> Prop :=
| walk_nil : is_walk g []
| walk_one : forall u, is_walk g [u]
| walk_cons : forall u v w, is_edge g u v -> is_walk g (v :: w) -> is_walk g (u :: v :: w).

(** [walk_cost g c w z]: [w] is a walk and the costs of its steps add up to [z]. *)
Inductive walk_cost (g : graph) (c : list Z) : list nat -> Z -> Prop :=
| wc_nil : walk_cost g c [] 0
| wc_one : forall u, walk_cost g c [u] 0
| wc_cons : forall u v w e x z,
    step_edge g u v e -> nth_error c e = Some x ->
    walk_cost g c (v :: w) z -> walk_cost g c (u :: v :: w) (x + z).

(** [prize_sum p l z]: the prizes of the listed vertices add up to [z]. *)
Inductive prize_sum (p : list Z) : list nat -> Z -> Prop :=
| ps_nil : prize_sum p [] 0
| ps_cons : forall v l x z,
    nth_error p v = Some x -> prize_sum p l z -> prize_sum p (v :: l) (x + z).

(** A closed simple tour written from [r]: [r, v1, ..., vk, r], all of [r, v1..vk]
    distinct vertices, k >= 2, consecutive vertices adjacent. *)
Definition tour_from (g : graph) (r : nat) (t : list nat) : Prop :=
  exists vs, t = r :: vs ++ [r] /\ NoDup (r :: vs) /\ 2 <= length vs /\
             is_walk g t /\ Forall (fun v => v < gn g) t.

(** A closed simple tour that visits [r] (written from any of its vertices). *)
Definition tour_thru (g : graph) (r : nat) (t : list nat) : Prop :=
  (exists s, tour_from g s t) /\ In r t.

(** Prize of a closed tour: every visited vertex counted once. *)
Definition tour_prize (p : list Z) (t : list nat) (z : Z) : Prop :=
  prize_sum p (removelast t) z.

(** [t'] is [t] written from another starting vertex: same cyclic order. *)
Definition same_cycle (t t' : list nat) : Prop :=
  exists a b x y, t = a ++ b ++ [x] /\ t' = b ++ a ++ [y] /\
    hd_error (a ++ b) = Some x /\ hd_error (b ++ a) = Some y.

(** All costs between 0 and [C]; there is a cost for every edge. *)
Definition costs_within (g : graph) (c : list Z) (lo hi : Z) : Prop :=
  length c = length (ge g) /\ Forall (fun x => lo <= x <= hi)%Z c.

Definition prizes_within (g : graph) (p : list Z) (lo hi : Z) : Prop :=
  length p = gn g /\ Forall (fun x => lo <= x <= hi)%Z p.

(** [within g ok s d v]: there is a walk of exactly [d] steps from [s] to [v] all of whose
    vertices after [s] satisfy [ok]. *)
Inductive within (g : graph) (ok : nat -> Prop) (s : nat) : nat -> nat -> Prop :=
| within_0 : within g ok s 0 s
| within_S : forall d u v, within g ok s d u -> is_edge g u v -> ok v -> within g ok s (S d) v.

(** [d] is the length of a shortest such walk. *)
Definition dist (g : graph) (ok : nat -> Prop) (s d v : nat) : Prop :=
  within g ok s d v /\ forall d', d' < d -> ~ within g ok s d' v.

(** A closed simple tour written from [r] with at least [m] vertices besides [r];
    [tour_from] is the case [m = 2], [m = 1] also allows there-and-back [r, v, r]. *)
Definition closed_tour (g : graph) (r m : nat) (t : list nat) : Prop :=
  exists vs, t = r :: vs ++ [r] /\ NoDup (r :: vs) /\ m <= length vs /\
             is_walk g t /\ Forall (fun v => v < gn g) t.

(** Replacing the path [internal] by [cand] increases the prize. *)
Definition increases_prize (p : list Z) (internal cand : list nat) : Prop :=
  exists ip ep, prize_sum p internal ip /\ prize_sum p cand ep /\ (ip < ep)%Z.

(** [any_cost g c w z]: [w] is a walk and, for some choice of one edge per step, the costs
    add up to [z] (the choice only matters with parallel edges). *)
Inductive any_cost (g : graph) (c : list Z) : list nat -> Z -> Prop :=
| ac_one : forall u, any_cost g c [u] 0
| ac_cons : forall u v w e x z,
    joins g e u v -> nth_error c e = Some x ->
    any_cost g c (v :: w) z -> any_cost g c (u :: v :: w) (x + z).

(** [w] goes from [s] to [t] and all its vertices after the first satisfy [ok]. *)
Definition path_via (ok : nat -> Prop) (s t : nat) (w : list nat) : Prop :=
  hd_error w = Some s /\ last w s = t /\ forall v, In v (tl w) -> ok v.

(** [w] is read off the closed tour [t] from position [i], going round cyclically. *)
Definition cyclic_sub (t : list nat) (i : nat) (w : list nat) : Prop :=
  forall q, q < length w -> nth_error w q = nth_error t ((i + q) mod (length t - 1)).

(** [w] is the longest path along the closed tour [t] from position [i] whose prize stays
    below [quota], and the tour vertex [x] after it would reach the quota. *)
Definition quota_path (p : list Z) (quota : Z) (t : list nat) (i : nat) (w : list nat) (x : nat) : Prop :=
  cyclic_sub t i (w ++ [x]) /\ w <> [] /\ length w < length t - 1 /\
  exists z y, prize_sum p w z /\ nth_error p x = Some y /\ (z < quota)%Z /\ (quota <= z + y)%Z.

(** [ext] closes the path [w] to a tour through one new vertex, and the tour meets the quota. *)
Definition vertex_collapse (g : graph) (p : list Z) (quota : Z) (w ext : list nat) : Prop :=
  exists a b l v, w = a :: l ++ [b] /\ ext = [b; v; a] /\ ~ In v w /\
    is_edge g b v /\ is_edge g v a /\
    exists z, prize_sum p (w ++ [v]) z /\ (quota <= z)%Z.
