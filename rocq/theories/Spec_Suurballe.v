(** * Spec_Suurballe: trees, walks and shortest distances for Suurballe's algorithm *)
From Verif Require Import Base Spec_Python.
Open Scope nat_scope.

(** [a] lies on the path of the tree from the root to [d] ([a] = [d] included): [d] is reached
    from [a] along (parent, child) edges. *)
Inductive descends (T : list (nat * nat)) (a : nat) : nat -> Prop :=
| desc_refl : descends T a a
| desc_step : forall p c, descends T a p -> In (p, c) T -> descends T a c.

(** A rooted tree: no vertex has two parents, the root has none, and every parent is reached
    from the root. *)
Definition rooted_tree (T : list (nat * nat)) (root : nat) : Prop :=
  NoDup (map snd T) /\ ~ In root (map snd T) /\ forall p c, In (p, c) T -> descends T root p.

(** [l] goes down the tree from [v]. *)
Inductive chain (T : list (nat * nat)) : nat -> list nat -> Prop :=
| chain_one : forall v, chain T v [v]
| chain_cons : forall v c l, In (v, c) T -> chain T c l -> chain T v (v :: l).

(** [x] comes before [y] in [l]. *)
Definition comes_before (l : list nat) (x y : nat) : Prop :=
  exists a b c, l = a ++ x :: b ++ y :: c.

(** There is an edge from [u] to [v] of weight [w]. *)
Definition arc (G : list (nat * list (nat * Z))) (u v : nat) (w : Z) : Prop :=
  exists l, In (u, l) G /\ In (v, w) l.

(** A directed graph with one entry per vertex and at most one edge per ordered pair. *)
Definition directed (G : list (nat * list (nat * Z))) : Prop :=
  NoDup (map fst G) /\ (forall u l, In (u, l) G -> NoDup (map fst l)) /\
  (forall u v w, arc G u v w -> In v (map fst G)).

(** No edge has a reverse edge, and there are no self loops. *)
Definition asymmetric (G : list (nat * list (nat * Z))) : Prop :=
  forall u v w w', arc G u v w -> ~ arc G v u w'.

(** [p] is a walk from [u] to [v] of total weight [z]. *)
Inductive dwalk (G : list (nat * list (nat * Z))) : nat -> nat -> list nat -> Z -> Prop :=
| dw_one : forall u, dwalk G u u [u] 0%Z
| dw_cons : forall u x v p w z, arc G u x w -> dwalk G x v p z -> dwalk G u v (u :: p) (w + z)%Z.

(** [dist] lists exactly the vertices reachable from [s], each once with the weight of a
    shortest walk. *)
Definition shortest_distances (G : list (nat * list (nat * Z))) (s : nat) (dist : list (nat * Z)) : Prop :=
  NoDup (map fst dist) /\ entry dist s 0%Z /\
  (forall v d, entry dist v d -> exists p, dwalk G s v p d) /\
  (forall v p z, dwalk G s v p z -> exists d, entry dist v d /\ (d <= z)%Z).

(** [paths] has a shortest path to every vertex listed in [dist], and every path continues the
    path of its last but one vertex, as in the output of Dijkstra's algorithm. *)
Definition shortest_paths (G : list (nat * list (nat * Z))) (s : nat) (dist : list (nat * Z))
    (paths : list (nat * list nat)) : Prop :=
  NoDup (map fst paths) /\ (forall v, In v (map fst paths) <-> In v (map fst dist)) /\
  (forall v p, entry paths v p -> exists d, entry dist v d /\ dwalk G s v p d) /\
  entry paths s [s] /\
  (forall v p u q, entry paths v p -> p = q ++ [u; v] -> entry paths u (q ++ [u])).

(** No path has more than [depth] vertices. *)
Definition paths_within (depth : nat) (paths : list (nat * list nat)) : Prop :=
  forall v p, entry paths v p -> length p <= depth.

(** The edges that a walk uses. *)
Fixpoint walk_edges (p : list nat) : list (nat * nat) :=
  match p with
  | u :: ((v :: _) as p') => (u, v) :: walk_edges p'
  | _ => []
  end.

(** [p] and [q] are walks from [s] to [t] without a common edge, of total weight [z]. *)
Definition disjoint_pair (G : list (nat * list (nat * Z))) (s t : nat) (p q : list nat) (z : Z) : Prop :=
  (forall e, In e (walk_edges p) -> ~ In e (walk_edges q)) /\
  NoDup (walk_edges p) /\ NoDup (walk_edges q) /\
  exists z1 z2, dwalk G s t p z1 /\ dwalk G s t q z2 /\ z = (z1 + z2)%Z.

(** A vertex other than [s] with two incoming edges is the only predecessor of each of its
    successors, as when every vertex is split into a tail and a head. *)
Definition split_like (G : list (nat * list (nat * Z))) (s : nat) : Prop :=
  forall v x u1 u2 u3 w1 w2 w3 w4, v <> s -> u1 <> u2 -> arc G u1 v w1 -> arc G u2 v w2 ->
    arc G v x w3 -> arc G u3 x w4 -> u3 = v.
