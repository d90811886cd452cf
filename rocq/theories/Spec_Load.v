(** * Spec_Load: which graph a vial should be run on *)
From Coq Require Import String QArith.
From Verif Require Import Base M_Python M_PyWrap M_RunAlg M_Compare M_Dataset M_Lab M_Csv M_Load Spec_Python Spec_Dataset Spec_Summary.
Open Scope nat_scope.
Open Scope string_scope.

(** Every edge of the graph of a file has a weight, the same in both directions. *)
Definition weighted (g : attr_graph) : Prop :=
  undirected (ag_adj g) /\ (forall u v, ag_weight g u v = ag_weight g v u) /\
  forall u v, adj (ag_adj g) u v -> exists x, ag_weight g u v = Some x.

(** The graph of a file with its weights as costs and these prizes. *)
Definition drawn (g : attr_graph) (prize : nat -> option Z) (G : pygraph) : Prop :=
  pg_adj G = ag_adj g /\ (forall u v, adj (ag_adj g) u v -> pg_cost G u v = ag_weight g u v) /\
  forall v, vertex (ag_adj g) v -> pg_prize G v = prize v.

(** The value that a dictionary of scores has for a vertex: the last one. *)
Fixpoint scored (scores : list (nat * Z)) (v : nat) : option Z :=
  match scores with
  | [] => None
  | (u, x) :: r => match scored r v with Some y => Some y | None => if Nat.eqb u v then Some x else None end
  end.

(** The new cost of an edge, whose ends may be in either order: the last one. *)
Fixpoint priced (costs : list ((nat * nat) * Z)) (u v : nat) : option Z :=
  match costs with
  | [] => None
  | ((a, b), x) :: r =>
    match priced r u v with
    | Some y => Some y
    | None => if ((Nat.eqb a u && Nat.eqb b v) || (Nat.eqb a v && Nat.eqb b u))%bool then Some x else None
    end
  end.

(** [G'] is [G] with other costs for the edges that have an entry. *)
Definition repriced (costs : list ((nat * nat) * Z)) (G G' : pygraph) : Prop :=
  pg_adj G' = pg_adj G /\ (forall v, pg_prize G' v = pg_prize G v) /\
  forall u v, adj (pg_adj G) u v -> pg_cost G' u v = match priced costs u v with Some x => Some x | None => pg_cost G u v end.

(** Every vertex, or no vertex, has a demand. *)
Definition all_demands (g : attr_graph) : Prop := forall v, vertex (ag_adj g) v -> exists x, ag_demand g v = Some x.
Definition no_demands (g : attr_graph) : Prop := forall v, vertex (ag_adj g) v -> ag_demand g v = None /\ ag_prize g v = None.

(** The graph of the instance before edges are removed or costs are changed: for londonaq the demands are the prizes, for tspwplib
    the scores. *)
Definition instance_graph (W : world) (d : data_config) (G : pygraph) : Prop :=
  match dc_dataset d with
  | Londonaq => exists g depots, w_londonaq W (dc_graph_name d) = Ok (g, depots) /\ drawn g (ag_demand g) G
  | Tspwplib => exists g depots scores, w_oplib W (dc_generation d) (dc_graph_name d) = Ok (g, depots, scores) /\ drawn g (scored scores) G
  end.

(** The files are as they should be: those of londonaq have all demands, those of tspwplib none. What removes edges leaves an
    undirected graph. *)
Definition good_files (W : world) : Prop :=
  (forall name g depots, w_londonaq W name = Ok (g, depots) -> weighted g /\ all_demands g) /\
  (forall gen name g depots scores, w_oplib W gen name = Ok (g, depots, scores) -> weighted g /\ no_demands g) /\
  (forall G k G', undirected (pg_adj G) -> w_sparsify W G k = Ok G' -> undirected (pg_adj G')).

(** The new costs for the name of a cost function, in round [n]; [None]: the costs are kept. *)
Definition new_costs (W : world) (n : nat) (cost_function : string) (G : pygraph) (costs : option (list ((nat * nat) * Z))) : Prop :=
  (cost_function = "UNIFORM_RANDOM" /\ costs = Some (w_random W n (py_edges G))) \/
  (cost_function = "MST" /\ exists c, w_mst W G = Ok c /\ costs = Some c) \/
  (cost_function = "SEMI_MST" /\ exists c, w_semi_mst W G = Ok c /\ costs = Some c) \/
  (~ In cost_function ["UNIFORM_RANDOM"; "MST"; "SEMI_MST"] /\ costs = None).

(** The graph that a data configuration describes: that of the instance, made sparse if kappa is given and not 0, and with the costs
    of the cost function. *)
Definition described (W : world) (n : nat) (d : data_config) (G : pygraph) : Prop :=
  exists G0 G1 costs, instance_graph W d G0 /\
    (match dc_kappa d with
     | None => G1 = G0
     | Some k => (k = 0%Z -> G1 = G0) /\ (k <> 0%Z -> w_sparsify W G0 (Some k) = Ok G1)
     end) /\
    new_costs W n (dc_cost_function d) G1 costs /\
    match costs with Some c => repriced c G1 G | None => G = G1 end.

(** The directory of the data set of a configuration is there. *)
Definition root_there (R : roots) (d : data_config) : Prop :=
  match dc_dataset d with Tspwplib => oplib_root R = Some (true, true) | Londonaq => londonaq_root R = Some true end.

(** The same instance: all but the quota, the root and what the quota came from. *)
Definition same_instance (d d' : data_config) : Prop :=
  dc_dataset d = dc_dataset d' /\ dc_graph_name d = dc_graph_name d' /\ dc_generation d = dc_generation d' /\
  dc_kappa d = dc_kappa d' /\ dc_cost_function d = dc_cost_function d'.

(** A round of an experiment: what the vial is run on and what comes out; [None]: an exception, so no result. *)
Inductive rounds (W : world) (R : roots) (solve : full_vial -> pygraph -> res Z) :
  nat -> list full_vial -> list (full_vial * pygraph * option Z) -> list full_vial -> Prop :=
| rounds_stop : forall n vs, rounds W R solve n vs [] vs
| rounds_next : forall n v vs G o rs rest, root_there R (fv_data v) -> described W n (fv_data v) G ->
    (forall z, o = Some z -> solve v G = Ok z) -> (o = None -> exists e, solve v G = Throw e) ->
    rounds W R solve (S n) vs rs rest -> rounds W R solve n (v :: vs) ((v, G, o) :: rs) rest.

(** The results of rounds. *)
Fixpoint results_of (rs : list (full_vial * pygraph * option Z)) : list (nat * Z) :=
  match rs with
  | [] => []
  | (v, _, Some z) :: r => (fv_uuid v, z) :: results_of r
  | _ :: r => results_of r
  end.

(** The instance has a row in the table of its data set, and which one. *)
Definition tabulated (generations : list string) (d : data_config) : Prop :=
  match dc_dataset d with
  | Londonaq => In (dc_graph_name d) londonaq_graphs /\ (dc_kappa d = None \/ dc_kappa d = Some 0%Z) /\
      ~ In (dc_cost_function d) ["UNIFORM_RANDOM"; "MST"; "SEMI_MST"]
  | Tspwplib => In (dc_graph_name d) tspwplib_graphs /\ In (dc_cost_function d) the_costs /\
      exists k gen, dc_kappa d = Some k /\ In k the_kappas /\ dc_generation d = Some gen /\ In gen generations
  end.
Definition row_key (d : data_config) (key : list (string * cell)) : Prop :=
  match dc_dataset d with
  | Londonaq => key = [("graph_name", CStr (dc_graph_name d))]
  | Tspwplib => exists k gen, dc_kappa d = Some k /\ dc_generation d = Some gen /\
      key = [("graph_name", CStr (dc_graph_name d)); ("generation", CStr gen); ("cost_function", CStr (dc_cost_function d)); ("kappa", CInt k)]
  end.

(** The root of a configuration is the first depot of the file. *)
Definition root_is_depot (W : world) (d : data_config) : Prop :=
  match dc_dataset d with
  | Londonaq => forall g depots, w_londonaq W (dc_graph_name d) = Ok (g, depots) -> exists ds, depots = dc_root d :: ds
  | Tspwplib => forall g depots scores, w_oplib W (dc_generation d) (dc_graph_name d) = Ok (g, depots, scores) -> exists ds, depots = dc_root d :: ds
  end.

(** The graph that loading gives. *)
Definition graph_of (m : res (pygraph * option (list (nat * Z)))) : res pygraph := do '(G, _) <- m; Ok G.

(** A vial as M_Lab sees it. *)
Definition short (v : full_vial) : vial := mkVial (fv_uuid v) (dc_quota (fv_data v)).
Definition written (results : list (nat * Z)) (st : store) : store := fold_left (fun st x => write_result st (fst x) (snd x)) results st.

(** Removing edges does not remove attributes, and every vertex of a file of OPLib has a score. *)
Definition keeps_attributes (W : world) : Prop :=
  forall G k G', attributes_given (pg_adj G) (pg_cost G) (pg_prize G) -> w_sparsify W G k = Ok G' ->
    attributes_given (pg_adj G') (pg_cost G') (pg_prize G').
Definition all_scored (W : world) : Prop :=
  forall gen name g depots scores, w_oplib W gen name = Ok (g, depots, scores) ->
    forall v, vertex (ag_adj g) v -> exists x, scored scores v = Some x.
