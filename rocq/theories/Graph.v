(** * Graph: the Boost graph of the project.

    /repo/include/pctsp/graph.hh:22-29:
    [boost::adjacency_list<listS, vecS, undirectedS, ...>]. *)
From Verif Require Import Base.

(** A graph is its number of vertices and its edges in insertion order; the edge
    with position [i] in [ge] has edge id [i] (stands for the edge descriptor; two
    descriptors are equal iff they have the same property address, i.e. the same id).
    graph.hh:22-29.  Vertex and edge properties are kept in separate maps. *)
Record graph := mkGraph { gn : nat; ge : list (nat * nat) }.

(** The pair joins [u] and [v], in either direction. *)
Definition joinsb (p : nat * nat) (u v : nat) : bool :=
  orb (andb (Nat.eqb (fst p) u) (Nat.eqb (snd p) v))
      (andb (Nat.eqb (fst p) v) (Nat.eqb (snd p) u)).

(** First edge id joining [u] and [v], counting from [k]. *)
Fixpoint find_edge (l : list (nat * nat)) (k u v : nat) : option nat :=
  match l with
  | [] => None
  | p :: t => if joinsb p u v then Some k else find_edge t (S k) u v
  end.

(** [boost::edge(u, v, g)]: searches the out-edge list of [u] (UB if [u] is not a
    vertex: the vecS vertex vector is indexed unchecked); [Some e] is [(e,true)],
    [None] is [(_,false)].  The out-edge list is in insertion order (listS), so the
    first match is the edge with the smallest id. *)
Definition edge (g : graph) (u v : nat) : res (option nat) :=
  if u <? gn g then Ok (find_edge (ge g) 0 u v) else UB VecOOB.

(** Neighbours contributed by one edge to the out-edge list of [v]: an undirected
    self loop is stored twice in the same list. *)
Definition adj_of (v : nat) (p : nat * nat) : list nat :=
  (if Nat.eqb (fst p) v then [snd p] else []) ++
  (if Nat.eqb (snd p) v then [fst p] else []).

(** Out-edge list of [v] as neighbours, in insertion order. *)
Definition nbrs (g : graph) (v : nat) : list nat := flat_map (adj_of v) (ge g).

(** [boost::adjacent_vertices(v, g)]. *)
Definition adjacent (g : graph) (v : nat) : res (list nat) :=
  if v <? gn g then Ok (nbrs g v) else UB VecOOB.

(** [boost::num_vertices(g)]. *)
Definition num_vertices (g : graph) : nat := gn g.

(** [boost::vertices(g)] in order. *)
Definition vertices (g : graph) : list nat := seq 0 (gn g).

(** [boost::add_edge(u, v, g)]: with vecS vertices the graph grows so that both end
    points exist; the new edge gets the next id. *)
Definition add_edge (g : graph) (u v : nat) : graph :=
  mkGraph (Nat.max (gn g) (S (Nat.max u v))) (ge g ++ [(u, v)]).

(** [boost::source(e, g)] and [boost::target(e, g)] for a descriptor obtained from
    [edges(g)]. *)
Definition endpoints (g : graph) (e : nat) : res (nat * nat) :=
  match nth_error (ge g) e with Some p => Ok p | None => UB VecOOB end.

(** Cost of an edge: [cost_map[e]], the edge_weight_t property (graph.hh:28,37). *)
Definition cost_of (c : list Z) (e : nat) : res Z := vget c e.

(** Prize of a vertex: [prize_map[v]], the vertex_distance_t property (graph.hh:27,36). *)
Definition prize_of (p : list Z) (v : nat) : res Z := vget p v.
