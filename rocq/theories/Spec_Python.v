(** * Spec_Python: what the Python preprocessing and starting-tour functions should return *)
From Verif Require Import Base.
Open Scope nat_scope.

(** [u] and [v] are adjacent in the dictionary of neighbours [g]. *)
Definition adj (g : list (nat * list nat)) (u v : nat) : Prop :=
  exists l, In (u, l) g /\ In v l.

(** [v] is a vertex of [g]. *)
Definition vertex (g : list (nat * list nat)) (v : nat) : Prop := In v (map fst g).

(** An undirected graph: every vertex has one entry, no neighbour is listed twice, and
    adjacency is symmetric. Self loops are allowed. *)
Definition undirected (g : list (nat * list nat)) : Prop :=
  NoDup (map fst g) /\ (forall v l, In (v, l) g -> NoDup l) /\
  (forall u v, adj g u v -> adj g v u).

(** [h] is the subgraph of [g] induced by the vertices of [h]. *)
Definition induced_subgraph (h g : list (nat * list nat)) : Prop :=
  undirected h /\ (forall v, vertex h v -> vertex g v) /\
  (forall u v, adj h u v <-> adj g u v /\ vertex h u /\ vertex h v).

(** Consecutive entries are related. *)
Inductive chain (R : nat -> nat -> Prop) : list nat -> Prop :=
| chain_nil : chain R []
| chain_one : forall u, chain R [u]
| chain_cons : forall u v w, R u v -> chain R (v :: w) -> chain R (u :: v :: w).

(** A closed tour [r, v1, ..., vk, r] with [k >= 2], all of [r, v1, ..., vk] distinct. *)
Definition cycle_at (R : nat -> nat -> Prop) (r : nat) (t : list nat) : Prop :=
  exists vs, t = r :: vs ++ [r] /\ NoDup (r :: vs) /\ 2 <= length vs /\ chain R t.

(** Every vertex in [S] has two different neighbours in [S] other than itself. *)
Definition two_neighbours (g : list (nat * list nat)) (S : nat -> Prop) : Prop :=
  forall v, S v -> exists a b, a <> b /\ a <> v /\ b <> v /\ S a /\ S b /\ adj g v a /\ adj g v b.

(** [w] starts at [s] and ends at [t]. *)
Definition from_to (s t : nat) (w : list nat) : Prop := hd_error w = Some s /\ last w s = t.

(** Sum of the costs of the steps of a walk. *)
Fixpoint steps_cost (cost : nat -> nat -> Z) (w : list nat) : Z :=
  match w with
  | u :: ((v :: _) as w') => (cost u v + steps_cost cost w')%Z
  | _ => 0%Z
  end.

(** [u] can be reached from [v]. *)
Inductive reach (g : list (nat * list nat)) (v : nat) : nat -> Prop :=
| reach_refl : reach g v v
| reach_step : forall u w, reach g v u -> adj g u w -> reach g v w.

(** [comps] are the biconnected components (blocks) of [g], as networkx returns them: every
    simple cycle lies inside one of them, and two vertices of a component of three or more
    vertices lie on a common simple cycle. *)
Definition blocks_of (g : list (nat * list nat)) (comps : list (list nat)) : Prop :=
  (forall c, In c comps -> NoDup c /\ forall v, In v c -> vertex g v) /\
  (forall r t, cycle_at (adj g) r t -> exists c, In c comps /\ forall v, In v t -> In v c) /\
  (forall c u v, In c comps -> 3 <= length c -> In u c -> In v c -> u <> v ->
     exists t, cycle_at (adj g) u t /\ In v t).

(** [comp] is the set of vertices connected to [v]. *)
Definition component_of (g : list (nat * list nat)) (v : nat) (comp : list nat) : Prop :=
  forall u, In u comp <-> reach g v u.

(** [map] has one value for every key and [a] is the one of [k]. *)
Definition entry {A} (map : list (nat * A)) (k : nat) (a : A) : Prop := In (k, a) map.

(** Sum of the prizes of a list of vertices; all of them have a prize. *)
Inductive prizes_total (prize_map : list (nat * Z)) : list nat -> Z -> Prop :=
| pt_nil : prizes_total prize_map [] 0%Z
| pt_cons : forall v l p z, entry prize_map v p -> prizes_total prize_map l z ->
    prizes_total prize_map (v :: l) (p + z)%Z.

(** [tour] goes along [first] and back along [second]. *)
Definition there_and_back (first second tour : list nat) : Prop :=
  exists s t a b, first = s :: a ++ [t] /\ second = s :: b ++ [t] /\
    tour = s :: a ++ [t] ++ rev b ++ [s].

(** The maps are complete: every entry has two paths with common ends, every vertex on them
    a prize and the entry itself a cost. *)
Definition complete_maps (prize_map cost_map : list (nat * Z))
    (paths_map : list (nat * (list nat * list nat))) : Prop :=
  NoDup (map fst prize_map) /\ NoDup (map fst cost_map) /\ NoDup (map fst paths_map) /\
  forall v first second, entry paths_map v (first, second) ->
    (exists tour, there_and_back first second tour /\
       forall u, In u tour -> exists p, entry prize_map u p) /\
    exists c, entry cost_map v c.

(** [tour] is the tour of the entry of [v], it has the given prize and cost. *)
Definition start_tour (prize_map cost_map : list (nat * Z))
    (paths_map : list (nat * (list nat * list nat))) (v : nat) (tour : list nat) (prize cost : Z) : Prop :=
  exists first second, entry paths_map v (first, second) /\ there_and_back first second tour /\
    prizes_total prize_map (removelast tour) prize /\ entry cost_map v cost.

(** Like [start_tour], and it is simple and collects the quota. *)
Definition feasible_start (prize_map : list (nat * Z)) (quota : Z) (cost_map : list (nat * Z))
    (paths_map : list (nat * (list nat * list nat))) (v : nat) (tour : list nat) (cost : Z) : Prop :=
  exists prize, start_tour prize_map cost_map paths_map v tour prize cost /\
    (quota <= prize)%Z /\ NoDup (removelast tour).
