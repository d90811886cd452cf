(** * Spec_Dataset: what the statistics of an instance should say *)
From Verif Require Import Base Graph Spec Spec_Python Spec_PyWrap M_PyWrap M_DisjointMap Spec_Split Spec_Suurballe.
Open Scope nat_scope.

(** Sum of a list of numbers. *)
Fixpoint zsum (l : list Z) : Z := match l with [] => 0%Z | x :: r => (x + zsum r)%Z end.

(** Every vertex has a prize and every edge a cost. *)
Definition attributes_given (g : list (nat * list nat)) (cost : nat -> nat -> option Z) (prize : nat -> option Z) : Prop :=
  (forall v, vertex g v -> exists x, prize v = Some x) /\ (forall u v, adj g u v -> exists x, cost u v = Some x).

(** The graph has this many vertices and edges, of this total cost and prize. *)
Definition measured (g : list (nat * list nat)) (cost : nat -> nat -> option Z) (prize : nat -> option Z)
    (nodes edges : nat) (total_cost total_prize : Z) : Prop :=
  (exists G c p, same_graph g cost prize G c p /\ edges = length (ge G) /\ total_cost = zsum c) /\
  (exists vs, NoDup vs /\ (forall v, In v vs <-> vertex g v) /\ nodes = length vs /\
     total_prize = zsum (map (fun v => attr (prize v)) vs)).

(** [z] is the largest prize of a tour along a pair of the map, and [v] an entry where it is
    reached. *)
Definition largest_prize (prize_map cost_map : list (nat * Z)) (paths_map : list (nat * (list nat * list nat)))
    (v : nat) (z : Z) : Prop :=
  (exists tour cost, start_tour prize_map cost_map paths_map v tour z cost) /\
  (forall v' tour' z' cost', start_tour prize_map cost_map paths_map v' tour' z' cost' -> (z' <= z)%Z).

(** No tour along a pair of the map collects anything. *)
Definition no_prize (prize_map cost_map : list (nat * Z)) (paths_map : list (nat * (list nat * list nat))) : Prop :=
  forall v tour z cost, start_tour prize_map cost_map paths_map v tour z cost -> (z <= 0)%Z.

(** [z] is the largest value of the map. *)
Definition largest_value (m : list (nat * Z)) (z : Z) : Prop :=
  (exists v, entry m v z) /\ (forall v x, entry m v x -> (x <= z)%Z).

(** What a call of get_graph_stats is about: an undirected graph with all attributes, its blocks,
    and the call of Suurballe's algorithm with its result. *)
Definition stats_call (names_of : nat -> split_names) (depth : nat) (bicomps : list (nat * list nat) -> list (list nat))
    (W : pygraph) (G : graph) (c p : list Z) (vt vh : nat -> nat) (D : list (nat * list (nat * Z))) (root : nat)
    (dist : list (nat * Z)) (paths : list (nat * list nat)) (cm : list (nat * Z)) (pm : list (nat * (list nat * list nat))) : Prop :=
  let V := map fst (pg_adj W) in
  let N := names_of (list_max V) in
  undirected (pg_adj W) /\ attributes_given (pg_adj W) (pg_cost W) (pg_prize W) /\
  blocks_of (pg_adj W) (bicomps (pg_adj W)) /\ same_graph (pg_adj W) (pg_cost W) (pg_prize W) G c p /\
  split_call G c V vt vh D N root dist paths /\ paths_within depth paths /\ costs_from c 0 /\
  disjoint_maps N depth D (vh root) dist paths = Ok (cm, pm).
