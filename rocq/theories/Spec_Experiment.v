(** * Spec_Experiment: what the result of a vial should say about the graph that was loaded *)
From Coq Require Import Permutation.
From Verif Require Import Base Graph Spec Spec_Python Spec_PyWrap Spec_Dataset Spec_RunAlg Spec_ILP Spec_Solve P_Dijkstra M_Dijkstra M_Solution M_ILP M_MaxFlow
  M_Solve M_Python M_PyWrap M_Suurballe M_DisjointMap M_RunAlg M_Compare M_Load M_Experiment.
Open Scope nat_scope.

(** A simple closed tour of the graph from [r], with its cost and its prize. *)
Definition graph_tour (W : pygraph) (r : nat) (t : list nat) (cost prize : Z) : Prop :=
  cycle_at (adj (pg_adj W)) r t /\ cost = steps_cost (fun u v => attr (pg_cost W u v)) t /\
  prize = zsum (map (fun v => attr (pg_prize W v)) (removelast t)).

(** The edges, the objective and the prize of a result are those of a simple closed tour that visits the root. *)
Definition graph_result (W : pygraph) (root : nat) (x : run_result) : Prop :=
  exists s t, graph_tour W s t (r_objective x) (r_prize x) /\ In root t /\ steps_of t (r_edges x).

(** A graph of networkx with all costs, between 0 and [C], and all prizes, between 0 and [P]. *)
Record priced_graph (W : pygraph) (C P : Z) : Prop := {
  pr_undirected : undirected (pg_adj W);
  pr_given : attributes_given (pg_adj W) (pg_cost W) (pg_prize W);
  pr_fit : attributes_fit (pg_cost W) (pg_prize W);
  pr_symmetric : forall u v, adj (pg_adj W) u v -> pg_cost W u v = pg_cost W v u;
  pr_costs : forall u v, adj (pg_adj W) u v -> (0 <= attr (pg_cost W u v) <= C)%Z;
  pr_prizes : forall v, vertex (pg_adj W) v -> (0 <= attr (pg_prize W v) <= P)%Z }.

(** Costs and prizes are so small that no sum leaves the range of a C++ int, and there are not too many edges. *)
Definition sizes (W : pygraph) (C P : Z) : Prop :=
  let n := length (pg_adj W) in
  small_numbers n C P /\ (2 * (Z.of_nat n * C) < int_max)%Z /\ (Z.of_nat n * P <= int_max)%Z /\
  (Z.of_nat (length (py_edges W) + n) <= 1000000000)%Z.

(** What is assumed about the world around a run on the graph [W]: [G], [c], [p] are the edges, costs and prizes of [W]; the split graph,
    its shortest paths and the maps made of them; the functions of tspwplib; the choices of containers and of the flow algorithm. *)
Definition run_on (L : lab_lib) (tb : tiebreak) (so : list nat -> list nat) (mf : flow_lib) (v : full_vial) (W : pygraph) (P : Z)
    (G : graph) (c p : list Z) (vt vh : nat -> nat) (D : dgraph) (N : split_names) (depth : nat) (dist : list (nat * Z))
    (paths : list (nat * list nat)) (cm : list (nat * Z)) (pm : list (nat * (list nat * list nat))) : Prop :=
  let quota := dc_quota (fv_data v) in let root := dc_root (fv_data v) in
  ge G = py_edges W /\ same_graph (pg_adj W) (pg_cost W) (pg_prize W) G c p /\ prizes_within G p 0 P /\
  maps_call W G c vt vh D N root depth dist paths cm pm /\ lab_ok L W G p quota root /\
  good_pick tb /\ (forall l, Permutation (so l) l) /\ (forall d s t, length (snd (mf d s t)) = length (n_arcs d)) /\
  (- int_max <= quota <= int_max)%Z.

(** [W] is what preprocessing makes of [W0]: the induced subgraph of the vertices on tours through the root, with the same costs and prizes. *)
Definition preprocessed (component : nxgraph -> nat -> list nat) (bicomps : nxgraph -> list (list nat)) (depth0 : nat) (v : full_vial)
    (W0 W : pygraph) : Prop :=
  let root := dc_root (fv_data v) in
  run_preprocessing component bicomps depth0 (fv_pre v) (pg_adj W0) root = Ok (pg_adj W) /\
  pg_cost W = pg_cost W0 /\ pg_prize W = pg_prize W0 /\ induced_subgraph (pg_adj W) (pg_adj W0) /\
  forall u, vertex (pg_adj W) u <-> exists t, cycle_at (adj (pg_adj W0)) root t /\ In u t.

(** A result that no tour of the graph through the root with the quota beats. *)
Definition best_result (W : pygraph) (quota : Z) (root : nat) (x : run_result) : Prop :=
  graph_result W root x /\ (quota <= r_prize x)%Z /\
  forall t cost prize, graph_tour W root t cost prize -> (quota <= prize)%Z -> (r_objective x <= cost)%Z.

(** The vial is run on [W] after preprocessing of [W0] and started with the edges [he]. Whenever SCIP is stopped, the result is a
    tour of [W0] that collects the quota, or empty if SCIP has no solution. If SCIP finished, no tour of [W0] is better, or the
    result is empty and no tour of [W0] through the root collects the quota. The lab gets the prize of this result. *)
Definition answered (component : nxgraph -> nat -> list nat) (bicomps : nxgraph -> list (list nat)) (depth0 : nat)
    (L : lab_lib) (tb : tiebreak) (so : list nat -> list nat) (mf : flow_lib) (N : split_names) (depth : nat)
    (D : dgraph) (s : nat) (dist : list (nat * Z)) (paths : list (nat * list nat)) (cm : list (nat * Z))
    (v : full_vial) (W0 W : pygraph) (he : list (nat * nat)) : Prop :=
  let quota := dc_quota (fv_data v) in let root := dc_root (fv_data v) in let mp := fp_model (fv_params v) in
  exists a bm m st q r, solve_pctsp_args L W he quota root mp cm = Ok a /\
    py_solve_start tb (sa_flags a) (py_edges W) (sa_heur a) (sa_cost a) (sa_prize a) (sa_quota a) root (sa_dist a)
      = Ok (bm, m, st, q, r) /\
    forall entries cbs sols, var_entries (i_graph m) entries ->
      scip_run m (accepted (sa_flags a) (i_graph m) q quota r entries) cbs sols ->
      exists st' out x, let S := mkSur N depth D s dist paths entries cbs sols in
        py_solve tb (sa_flags a) mf (py_edges W) (sa_heur a) (sa_cost a) (sa_prize a) (sa_quota a) root (sa_dist a)
          entries cbs sols = Ok (st', out) /\
        run_vial L tb so mf S v W = Ok x /\
        run_loaded component bicomps depth0 (vial_algorithm L tb so mf (fun _ => S)) v W0 = Ok (r_prize x) /\
        ((sols = [] /\ empty_result (r_edges x) (r_objective x) (r_prize x)) \/ graph_result W0 root x /\ (quota <= r_prize x)%Z) /\
        (scip_finished m (accepted (sa_flags a) (i_graph m) q quota r entries) (bc_rows st) (bc_rows st') sols ->
         best_result W0 quota root x \/
         empty_result (r_edges x) (r_objective x) (r_prize x) /\
           forall t cost prize, graph_tour W0 root t cost prize -> (prize < quota)%Z).
