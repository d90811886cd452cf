(** * Spec_RunAlg: what the result of an experiment should say *)
From Verif Require Import Base Graph Spec Spec_Python Spec_PyWrap Spec_Rename Spec_ILP Spec_Solve Spec_Dataset M_PyWrap M_DisjointMap Spec_Split Spec_Suurballe M_RunAlg.
Open Scope nat_scope.

(** [es] are the steps of the walk [t], in order. *)
Inductive steps_of : list nat -> list (nat * nat) -> Prop :=
| so_one : forall u, steps_of [u] []
| so_cons : forall u v w es, steps_of (v :: w) es -> steps_of (u :: v :: w) ((u, v) :: es).

(** The result is a simple closed tour through the root, with its cost and its prize. *)
Definition tour_result (G : graph) (c p : list Z) (root : nat) (es : list (nat * nat)) (objective prize : Z) : Prop :=
  exists t, tour_thru G root t /\ steps_of t es /\ walk_cost G c t objective /\ tour_prize p t prize.

(** The result is empty. *)
Definition empty_result (es : list (nat * nat)) (objective prize : Z) : Prop :=
  es = [] /\ objective = 0%Z /\ prize = 0%Z.

(** What is assumed about the functions of tspwplib: a yes-instance is a tour that meets the
    quota; the edges of a tour, in any order and direction, are put into the order of a tour
    with the same edges; no edge comes from an empty list. *)
Record lab_ok (L : lab_lib) (W : pygraph) (G : graph) (p : list Z) (quota : Z) (root : nat) : Prop := {
  lo_yes : forall es, yes_instance L W quota root es = true ->
    exists t, heur_pairs G root es t /\ meets_quota p quota t;
  lo_order : forall es t, heur_pairs G root es t -> exists es' r' t', order_edges L es = Some es' /\
    steps_of t' es' /\ heur_pairs G r' es t';
  lo_empty : order_edges L [] = None \/ order_edges L [] = Some [] }.

(** The cost of the edges of a list, and the prize of its vertices: every vertex counts once. *)
Definition list_cost (G : graph) (c : list Z) (es : list (nat * nat)) (z : Z) : Prop :=
  exists xs, Forall2 (fun uv x => exists e, joins G e (fst uv) (snd uv) /\ nth_error c e = Some x) es xs /\ z = zsum xs.
Definition list_prize (p : list Z) (es : list (nat * nat)) (z : Z) : Prop :=
  exists vs, NoDup vs /\ (forall v, In v vs <-> In v (ends es)) /\ prize_sum p vs z.

(** The graph of a vial: [G], [c], [p] are the graph of networkx with its attributes; it has [n]
    vertices, none isolated, costs between 0 and [C] and prizes between 0 and [P]. *)
Record instance (W : pygraph) (G : graph) (c p : list Z) (n : nat) (C P : Z) : Prop := {
  in_edges : ge G = py_edges W;
  in_undirected : undirected (pg_adj W);
  in_isolated : no_isolated (pg_adj W);
  in_given : attributes_given (pg_adj W) (pg_cost W) (pg_prize W);
  in_fit : attributes_fit (pg_cost W) (pg_prize W);
  in_same : same_graph (pg_adj W) (pg_cost W) (pg_prize W) G c p;
  in_count : vertex_count (ge G) n;
  in_costs : costs_within G c 0 C;
  in_prizes : prizes_within G p 0 P }.

(** What run_algorithm computes before anything else: the split graph with its shortest paths,
    and the maps of costs and pairs of disjoint paths. *)
Definition maps_call (W : pygraph) (G : graph) (c : list Z) (vt vh : nat -> nat) (D : list (nat * list (nat * Z)))
    (N : split_names) (root depth : nat) (dist : list (nat * Z)) (paths : list (nat * list nat))
    (cm : list (nat * Z)) (pm : list (nat * (list nat * list nat))) : Prop :=
  split_call G c (map fst (pg_adj W)) vt vh D N root dist paths /\ paths_within depth paths /\
  disjoint_maps N depth D (vh root) dist paths = Ok (cm, pm).

(** The numbers that the binding takes are all given and in range. *)
Definition options_given (mp : model_params) : Prop :=
  (exists z, mp_branching_max_depth mp = Some z /\ fits_int z) /\
  (exists z, mp_branching_strategy mp = Some z /\ (0 <= z <= int_max)%Z) /\
  (exists z, mp_tailing_off mp = Some z /\ fits_int z) /\ (exists z, mp_sepafreq mp = Some z /\ fits_int z) /\
  mp_lp_gap mp <> None /\ mp_time_limit mp <> None.
