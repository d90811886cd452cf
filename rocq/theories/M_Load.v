(** * M_Load: the graph that a vial is run on: reading it, its attributes, making it sparse and changing its costs
    (pctsp/lab/lab.py:108-213), the same for the statistics of a data set (pctsp/apps/dataset_app.py:55-95), and the vials of the
    commands londonaq and tsplib (pctsp/apps/main_app.py:405-594). Logging is left out. *)
From Coq Require Import String QArith.
From Verif Require Import Base M_Python M_PyWrap M_RunAlg M_Compare M_Dataset M_Lab M_Summary.
Open Scope nat_scope.
Open Scope string_scope.

(** The graph of [tsp.get_graph()] (lab.py:145, dataset_app.py:59,89; tspwplib, not in /repo) with the attributes weight and cost of
    edges and demand and prize of vertices, each of which may be missing. Costs and prizes are integers. *)
Record attr_graph := mkAttr {
  ag_adj : nxgraph; ag_weight : nat -> nat -> option Z; ag_cost : nat -> nat -> option Z;
  ag_demand : nat -> option Z; ag_prize : nat -> option Z }.

(** An attribute of an edge is changed: the two directions share a dictionary (lab.py:146; networkx). *)
Definition set_edge (f : nat -> nat -> option Z) (u v : nat) (x : option Z) : nat -> nat -> option Z :=
  fun a b => if (Nat.eqb a u && Nat.eqb b v || Nat.eqb a v && Nat.eqb b u)%bool then x else f a b.

(** An attribute of a vertex is changed (lab.py:148,150; networkx). *)
Definition set_node (f : nat -> option Z) (v : nat) (x : option Z) : nat -> option Z :=
  fun a => if Nat.eqb a v then x else f a.

(** [rename_edge_attributes(graph, {"weight": "cost"}, del_old_attr=True)] (lab.py:146; tspwplib, not in /repo): edge by edge, a
    KeyError for one without a weight. *)
Definition rename_edge_attributes (g : attr_graph) : res attr_graph :=
  foldM (fun g '(u, v) =>
    match ag_weight g u v with
    | Some w => Ok (mkAttr (ag_adj g) (set_edge (ag_weight g) u v None) (set_edge (ag_cost g) u v (Some w)) (ag_demand g) (ag_prize g))
    | None => Throw KeyErrorPy
    end) (edges_from [] (ag_adj g)) g.

(** [rename_node_attributes(graph, {"demand": "prize"}, del_old_attr=True)] (lab.py:148; tspwplib, not in /repo): vertex by vertex, in
    place. [false]: a KeyError at the first vertex without a demand; those before it are renamed. *)
Fixpoint rename_nodes (vs : list nat) (g : attr_graph) : attr_graph * bool :=
  match vs with
  | [] => (g, true)
  | v :: r =>
    match ag_demand g v with
    | Some x => rename_nodes r (mkAttr (ag_adj g) (ag_weight g) (ag_cost g) (set_node (ag_demand g) v None) (set_node (ag_prize g) v (Some x)))
    | None => (g, false)
    end
  end.
(** All vertices (lab.py:148; tspwplib). *)
Definition rename_node_attributes (g : attr_graph) : attr_graph * bool := rename_nodes (nx_nodes (ag_adj g)) g.

(** [nx.set_node_attributes(graph, scores, name="prize")] (lab.py:150; networkx): entries for other vertices are skipped. *)
Definition set_prizes (scores : list (nat * Z)) (g : attr_graph) : attr_graph :=
  fold_left (fun g '(v, x) =>
    if memb v (nx_nodes (ag_adj g)) then mkAttr (ag_adj g) (ag_weight g) (ag_cost g) (ag_demand g) (set_node (ag_prize g) v (Some x)) else g)
    scores g.

(** The attributes that are used from here on (lab.py:152-194): those named cost and prize. *)
Definition plain (g : attr_graph) : pygraph := mkPy (ag_adj g) (ag_cost g) (ag_prize g).

(** [graph.has_edge(u, v)] (lab.py:159; networkx). *)
Definition has_edge (g : nxgraph) (u v : nat) : bool := match dget g u with Some l => memb v l | None => false end.

(** [nx.set_edge_attributes(graph, new_cost, name="cost")] (lab.py:159,162,165, dataset_app.py:95; networkx): entries for pairs that
    are not edges are skipped. *)
Definition set_costs (new_cost : list ((nat * nat) * Z)) (W : pygraph) : pygraph :=
  fold_left (fun W '((u, v), x) =>
    if has_edge (pg_adj W) u v then mkPy (pg_adj W) (set_edge (pg_cost W) u v (Some x)) (pg_prize W) else W) new_cost W.

(** What is outside /repo: the problem files (lab.py:126-142), with graph, depots and, for OPLib, node scores, which do not change
    during the run; sparsify_uid, uniform_random_cost (which may differ from round to round), mst_cost and semi_mst_cost (lab.py:154-164). *)
Record world := mkWorld {
  w_oplib : option string -> string -> res (attr_graph * list nat * list (nat * Z));
  w_londonaq : string -> res (attr_graph * list nat);
  w_sparsify : pygraph -> option Z -> res pygraph;
  w_random : nat -> list (nat * nat) -> list ((nat * nat) * Z);
  w_mst : pygraph -> res (list ((nat * nat) * Z));
  w_semi_mst : pygraph -> res (list ((nat * nat) * Z)) }.

(** The two directories of a lab (lab.py:49-56): given or not; whether it exists and, for OPLib, whether it is a directory. *)
Record roots := mkRoots { oplib_root : option (bool * bool); londonaq_root : option bool }.

(** lab.py:116-142: the graph [tsp] stands for, and the variable [problem], which only OPLib sets and which keeps its value from
    earlier vials. *)
Definition read_problem (W : world) (R : roots) (problem : option (list (nat * Z))) (d : data_config)
    : res (attr_graph * option (list (nat * Z))) :=
  match dc_dataset d with
  | Tspwplib =>
    match oplib_root R with
    | Some (true, true) => do '(g, _, scores) <- w_oplib W (dc_generation d) (dc_graph_name d); Ok (g, Some scores)
    | _ => Throw FileNotFoundErrorPy
    end
  | Londonaq =>
    match londonaq_root R with
    | Some true => do '(g, _) <- w_londonaq W (dc_graph_name d); Ok (g, problem)
    | _ => Throw FileNotFoundErrorPy
    end
  end.

(** lab.py:145-150. *)
Definition with_prizes (problem : option (list (nat * Z))) (g : attr_graph) : res pygraph :=
  do g <- rename_edge_attributes g;
  match rename_node_attributes g with
  | (g, true) => Ok (plain g)
  | (g, false) => match problem with Some scores => Ok (plain (set_prizes scores g)) | None => Throw UnboundLocalErrorPy end
  end.

(** lab.py:157-165, in round [n] of the loop. *)
Definition with_costs (W : world) (n : nat) (cost_function : string) (G : pygraph) : res pygraph :=
  if String.eqb cost_function "UNIFORM_RANDOM" then Ok (set_costs (w_random W n (py_edges G)) G)
  else if String.eqb cost_function "MST" then do c <- w_mst W G; Ok (set_costs c G)
  else if String.eqb cost_function "SEMI_MST" then do c <- w_semi_mst W G; Ok (set_costs c G)
  else Ok G.

(** lab.py:115-165: the graph of a vial, and the new value of [problem]. *)
Definition load_vial (W : world) (R : roots) (n : nat) (problem : option (list (nat * Z))) (d : data_config)
    : res (pygraph * option (list (nat * Z))) :=
  do '(g, problem) <- read_problem W R problem d;
  do G <- with_prizes problem g;
  do G <- match or_none (dc_kappa d) with Some k => w_sparsify W G (Some k) | None => Ok G end;
  do G <- with_costs W n (dc_cost_function d) G;
  Ok (G, problem).

(** lab.py:177-194 inside the try: preprocessing and the algorithm [algo], which gives the prize of the result. *)
Definition run_loaded (component : nxgraph -> nat -> list nat) (bicomps : nxgraph -> list (list nat)) (depth : nat)
    (algo : full_vial -> pygraph -> res Z) (v : full_vial) (G : pygraph) : res Z :=
  do h <- run_preprocessing component bicomps depth (fv_pre v) (pg_adj G) (dc_root (fv_data v));
  algo v (mkPy h (pg_cost G) (pg_prize G)).

(** Lab.run_experiment_from_vial_list, lab.py:108-213, from round [n]; [solve]: run_loaded. An exception of loading ends the call, one
    of [solve] the round. The second component: the results written so far, also when the call ends with an exception. Creating
    directories is left to M_LabTree. *)
Fixpoint lab_rounds (W : world) (R : roots) (solve : full_vial -> pygraph -> res Z) (n : nat) (problem : option (list (nat * Z)))
    (vs : list full_vial) (results : list (nat * Z)) : res unit * list (nat * Z) :=
  match vs with
  | [] => (Ok tt, results)
  | v :: r =>
    match load_vial W R n problem (fv_data v) with
    | Ok (G, problem') =>
      match solve v G with
      | Ok prize => lab_rounds W R solve (S n) problem' r (results ++ [(fv_uuid v, prize)])%list
      | Throw _ => lab_rounds W R solve (S n) problem' r results
      | UB u => (UB u, results)
      | OutOfFuel => (OutOfFuel, results)
      end
    | Throw e => (Throw e, results)
    | UB u => (UB u, results)
    | OutOfFuel => (OutOfFuel, results)
    end
  end.
(** The whole call, lab.py:108-213; [problem] is not bound at first. *)
Definition lab_run (W : world) (R : roots) (solve : full_vial -> pygraph -> res Z) (vs : list full_vial) : res unit * list (nat * Z) :=
  lab_rounds W R solve 0 None vs [].

(** dataset_app.py:57-61: both renamings, exceptions of which are not caught. *)
Definition dataset_londonaq (W : world) (name : string) : res (pygraph * list nat) :=
  do '(g, depots) <- w_londonaq W name;
  do g <- rename_edge_attributes g;
  match rename_node_attributes g with (g, true) => Ok (plain g, depots) | (_, false) => Throw KeyErrorPy end.

(** dataset_app.py:81-91: the scores are set first, and demands not read. *)
Definition dataset_oplib (W : world) (gen name : string) : res (pygraph * list nat) :=
  do '(g, depots, scores) <- w_oplib W (Some gen) name;
  do g <- rename_edge_attributes (set_prizes scores g);
  Ok (plain g, depots).

(** What the command for the statistics of a data set reads, dataset_app.py:55-98 (M_Summary). *)
Definition dataset_sources (W : world) (generations : list string) (stats : pygraph -> nat -> res (instance_stats * Q * Q)) : sources :=
  mkSources (dataset_londonaq W) (dataset_oplib W) generations (w_sparsify W) (fun G => do c <- w_mst W G; Ok (set_costs c G)) stats.

(** The vial of the command tsplib, main_app.py:520-574; [quota] and [root]: get_quota(alpha) and get_root_vertex of the problem. The
    cost function of the problem that is set (522) is not used again. *)
Definition tsplib_vial (uuid : nat) (alpha : Z) (cost_function generation graph_name : string) (kappa : option Z) (quota : Z) (root : nat)
    (remove_leaves : bool) (params : full_params) : full_vial :=
  mkFullVial uuid (mkData Tspwplib cost_function graph_name quota root (Some alpha) (Some generation) kappa (Some 0%Z)) params
    (mkPre false remove_leaves false false false).

(** The vial of the command londonaq, main_app.py:423-470; [edge_weight_type] and [depots] are those of the problem. The graph is made
    only to see that it has weights and demands (426-429). *)
Definition londonaq_vial (W : world) (uuid : nat) (graph_name edge_weight_type : string) (quota : Z) (remove_leaves : bool)
    (params : full_params) : res full_vial :=
  do '(_, depots) <- dataset_londonaq W graph_name;
  do root <- first_depot depots;
  Ok (mkFullVial uuid (mkData Londonaq edge_weight_type graph_name quota root None None None None) params
        (mkPre false remove_leaves true false false)).
