(** * Spec_Split: splitting the vertices of an undirected graph, and vertex-disjoint paths *)
From Verif Require Import Base Graph Spec Spec_Cover Spec_Suurballe M_DisjointMap.
Open Scope nat_scope.

(** [D] is the graph [g] with costs [c] and vertices [V], every vertex [v] split into its tail
    [vt v] and its head [vh v]: an edge of weight 0 from the tail to the head, and for every edge
    of [g] one from either head to the other tail. *)
Record split_graph (g : graph) (c : list Z) (V : list nat) (vt vh : nat -> nat)
    (D : list (nat * list (nat * Z))) : Prop := {
  sg_directed : directed D;
  sg_ends : forall e u v, joins g e u v -> In u V /\ u <> v;
  sg_heads : forall v, In v V -> In (vh v) (map fst D);
  sg_tail_inj : forall u v, In u V -> In v V -> vt u = vt v -> u = v;
  sg_head_inj : forall u v, In u V -> In v V -> vh u = vh v -> u = v;
  sg_apart : forall u v, In u V -> In v V -> vt u <> vh v;
  sg_arcs : forall x y w, arc D x y w <->
    (exists v, In v V /\ x = vt v /\ y = vh v /\ w = 0%Z) \/
    (exists e u v, joins g e u v /\ nth_error c e = Some w /\ x = vh u /\ y = vt v) }.

(** The walk [u, v1, ..., vk] in the split graph: from the head of [u] through the tails and
    heads of the vertices between to the tail of [vk]. *)
Fixpoint split_rest (vt vh : nat -> nat) (p : list nat) : list nat :=
  match p with
  | [] => []
  | v :: p' => vt v :: match p' with [] => [] | _ => vh v :: split_rest vt vh p' end
  end.
Definition split_walk (vt vh : nat -> nat) (p : list nat) : list nat :=
  match p with [] => [] | u :: p' => vh u :: split_rest vt vh p' end.

(** What the functions of tspwplib are assumed to do on the split graph. *)
Record names_ok (V : list nat) (vt vh : nat -> nat) (N : split_names) : Prop := {
  nm_tail : forall v, In v V -> is_tail N (vt v) = true;
  nm_head : forall v, In v V -> is_tail N (vh v) = false;
  nm_original : forall v, In v V -> original N (vt v) = v;
  nm_path : forall p, incl p V -> 2 <= length p -> original_path N (split_walk vt vh p) = p }.

(** A call for the graph [g] and the root: the split graph, the functions of tspwplib, and the
    result of Dijkstra's algorithm from the head of the root. *)
Record split_call (g : graph) (c : list Z) (V : list nat) (vt vh : nat -> nat)
    (D : list (nat * list (nat * Z))) (N : split_names) (root : nat)
    (dist : list (nat * Z)) (paths : list (nat * list nat)) : Prop := {
  sc_graph : split_graph g c V vt vh D;
  sc_names : names_ok V vt vh N;
  sc_root : In root V;
  sc_dist : shortest_distances D (vh root) dist;
  sc_paths : shortest_paths D (vh root) dist paths }.

(** All costs are at least [lo]. *)
Definition costs_from (c : list Z) (lo : Z) : Prop := forall e w, nth_error c e = Some w -> (lo <= w)%Z.

(** Two walks from [s] to [t] without a common vertex inside, of total cost [z]. *)
Definition apart_inside (g : graph) (c : list Z) (s t : nat) (p q : list nat) (z : Z) : Prop :=
  exists p' q' z1 z2, p = s :: p' ++ [t] /\ q = s :: q' ++ [t] /\ p' <> q' /\
    NoDup p' /\ NoDup q' /\ (forall v, In v p' -> ~ In v q') /\
    any_cost g c p z1 /\ any_cost g c q z2 /\ z = (z1 + z2)%Z.

(** [p] and [q] are two different simple paths from [s] to [t] that share no vertex but the
    ends, of total cost [z]. *)
Definition vertex_disjoint (g : graph) (c : list Z) (s t : nat) (p q : list nat) (z : Z) : Prop :=
  leads s t p /\ leads s t q /\ p <> q /\ NoDup p /\ NoDup q /\
  (forall v, In v p -> In v q -> v = s \/ v = t) /\
  exists z1 z2, any_cost g c p z1 /\ any_cost g c q z2 /\ z = (z1 + z2)%Z.
