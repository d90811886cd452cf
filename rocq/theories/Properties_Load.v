(** * Properties_Load: every vial is run on the graph that its data configuration describes (C75) *)
From Coq Require Import String QArith.
From Verif Require Import Base M_Python M_PyWrap M_RunAlg M_Compare M_Dataset M_Lab M_Csv M_Summary M_Load Spec_Python Spec_Dataset Spec_Summary
  Spec_Compare Spec_Load P_Base P_PyWrap P_Load P_Load2 P_Load3.
Open Scope nat_scope.
Open Scope string_scope.

(** ** The graph of a vial *)

(** What is loaded is the graph that the configuration describes. *)
Theorem C75_graph : forall W R n pr d G pr', good_files W -> load_vial W R n pr d = Ok (G, pr') -> root_there R d /\ described W n d G.
Proof. exact load_described. Qed.
Print Assumptions C75_graph.

(** Loading succeeds if the directory and the file are there and the functions of tspwplib that are needed succeed. *)
Theorem C75_loads : forall W R n pr d, good_files W -> root_there R d ->
  match dc_dataset d with
  | Londonaq => exists x, w_londonaq W (dc_graph_name d) = Ok x
  | Tspwplib => exists x, w_oplib W (dc_generation d) (dc_graph_name d) = Ok x
  end ->
  (forall G k, dc_kappa d = Some k -> exists G', w_sparsify W G (Some k) = Ok G') ->
  (forall G, dc_cost_function d = "MST" -> exists c, w_mst W G = Ok c) ->
  (forall G, dc_cost_function d = "SEMI_MST" -> exists c, w_semi_mst W G = Ok c) ->
  exists G pr', load_vial W R n pr d = Ok (G, pr').
Proof. exact load_succeeds. Qed.
Print Assumptions C75_loads.

(** All edges of the graph have a cost and all vertices a prize. *)
Theorem C75_attributes : forall W R n pr d G pr', good_files W -> keeps_attributes W -> all_scored W -> load_vial W R n pr d = Ok (G, pr') ->
  attributes_given (pg_adj G) (pg_cost G) (pg_prize G).
Proof. exact attributes_ok. Qed.
Print Assumptions C75_attributes.

(** Vials of the same instance are run on the same graph (or none is), whatever ran before them, unless the costs are random. So the
    results of different algorithms can be compared. *)
Theorem C75_fair : forall W R n n' pr pr' d d', good_files W -> same_instance d d' -> dc_cost_function d <> "UNIFORM_RANDOM" ->
  graph_of (load_vial W R n pr d) = graph_of (load_vial W R n' pr' d').
Proof. exact load_fair. Qed.
Print Assumptions C75_fair.

(** Without the directory there is no graph; neither if an edge has no weight. *)
Theorem C75_no_directory : forall W R n pr d, ~ root_there R d -> load_vial W R n pr d = Throw FileNotFoundErrorPy.
Proof.
  intros W R n pr d H. unfold load_vial, read_problem. unfold root_there in H. destruct (dc_dataset d).
  - destruct (londonaq_root R) as [[|]|]; try reflexivity. exfalso. apply H. reflexivity.
  - destruct (oplib_root R) as [[[|] [|]]|]; try reflexivity. exfalso. apply H. reflexivity.
Qed.
Print Assumptions C75_no_directory.

Theorem C75_no_weight : forall W R n pr d g depots u v, root_there R d -> dc_dataset d = Londonaq ->
  w_londonaq W (dc_graph_name d) = Ok (g, depots) -> undirected (ag_adj g) -> adj (ag_adj g) u v ->
  ag_weight g u v = None -> ag_weight g v u = None -> load_vial W R n pr d = Throw KeyErrorPy.
Proof.
  intros W R n pr d g ds u v RT D E U A N N'. unfold load_vial, read_problem. unfold root_there in RT. rewrite D in *. rewrite RT, E. cbn [bind].
  unfold with_prizes. rewrite (rename_bad g u v U A N N'). reflexivity.
Qed.
Print Assumptions C75_no_weight.

(** ** The rounds of a lab *)

(** The vials before the first that cannot be loaded are run, each on the graph it describes; one that fails after loading leaves no
    result and does not stop the others. One that cannot be loaded stops them all. *)
Theorem C75_rounds : forall W R solve vs r out, good_files W -> lab_run W R solve vs = (r, out) ->
  exists rs rest, rounds W R solve 0 vs rs rest /\ out = results_of rs /\ vs = (map (fun x => fst (fst x)) rs ++ rest)%list /\
    match r with
    | Ok _ => rest = []
    | Throw e => exists v rest', rest = v :: rest' /\ forall pr, load_vial W R (List.length rs) pr (fv_data v) = Throw e
    | UB u => exists v rest', rest = v :: rest' /\ (graph_of (load_vial W R (List.length rs) None (fv_data v)) = UB u \/
        exists G, graph_of (load_vial W R (List.length rs) None (fv_data v)) = Ok G /\ solve v G = UB u)
    | OutOfFuel => exists v rest', rest = v :: rest' /\ (graph_of (load_vial W R (List.length rs) None (fv_data v)) = OutOfFuel \/
        exists G, graph_of (load_vial W R (List.length rs) None (fv_data v)) = Ok G /\ solve v G = OutOfFuel)
    end.
Proof. intros W R solve vs r out GF E. exact (rounds_ok W R solve vs GF 0 None [] r out E). Qed.
Print Assumptions C75_rounds.

(** The loop of M_Lab, in which loading depends on the vial only, describes these rounds: the properties of batches and missing
    vials hold for them. *)
Theorem C75_refines_lab : forall W R solve vs, NoDup (map fv_uuid vs) ->
  (forall v G, In v vs -> (exists z, solve v G = Ok z) \/ exists e, solve v G = Throw e) ->
  exists load solve', forall st, run_experiment_from_vial_list load solve' (map short vs) st =
    match lab_run W R solve vs with
    | (Ok _, out) => Ok (out, written out st) | (Throw e, _) => Throw e | (UB u, _) => UB u | (OutOfFuel, _) => OutOfFuel
    end.
Proof. exact lab_refines. Qed.
Print Assumptions C75_refines_lab.

(** ** The table of a data set *)

(** The statistics in the row of an instance are those of the graph that its vials are run on. *)
Theorem C75_table : forall W R n pr d generations stats rows, good_files W -> tabulated generations d -> root_is_depot W d -> root_there R d ->
  stats_of_dataset (dataset_sources W generations stats) (dc_dataset d) = Ok rows ->
  exists G pr' x key r, load_vial W R n pr d = Ok (G, pr') /\ stats G (dc_root d) = Ok x /\ row_key d key /\ In r rows /\ csv_row key x r.
Proof. exact table_graph. Qed.
Print Assumptions C75_table.

(** The sizes after preprocessing that the statistics give are those of the graph that the algorithm of the vial gets. *)
Theorem C75_sizes : forall names_of depth bicomps G D s dist paths root st component depth' algo v,
  get_graph_stats names_of depth bicomps G D s dist paths root = Ok st -> In (fv_pre v) experiment_preprocessing -> dc_root (fv_data v) = root ->
  exists H, run_loaded component bicomps depth' algo v G = algo v H /\
    List.length (pg_adj H) = pre_num_nodes st /\ List.length (py_edges H) = pre_num_edges st /\
    py_total_cost (get_edge_attributes H) (py_edges H) = Ok (pre_total_cost st) /\
    py_total_prize (get_node_attributes H) (nx_nodes (pg_adj H)) = Ok (pre_total_prize st).
Proof. exact sizes_ok. Qed.
Print Assumptions C75_sizes.

(** The vials of every experiment have rows in the tables, but for those of simple_branch_cut and, for londonaq, dryrun. *)
Theorem C75_experiments : forall F uuid ds e vs v, experiment_vials F uuid ds e = Ok vs -> In v vs ->
  e <> SimpleBranchCut -> (ds = Londonaq -> e <> Dryrun) ->
  In "gen1" (all_generations F) -> In "gen2" (all_generations F) -> In "gen3" (all_generations F) ->
  (forall name, ~ In (laq_cost F name) ["UNIFORM_RANDOM"; "MST"; "SEMI_MST"]) ->
  dc_dataset (fv_data v) = ds /\ tabulated (all_generations F) (fv_data v) /\ fv_pre v = mkPre false false true false false.
Proof. exact experiments_tabulated. Qed.
Print Assumptions C75_experiments.

Theorem C75_experiments_refuted : exists F uuid, In "gen1" (all_generations F) /\ In "gen2" (all_generations F) /\ In "gen3" (all_generations F) /\
  (forall name, ~ In (laq_cost F name) ["UNIFORM_RANDOM"; "MST"; "SEMI_MST"]) /\
  (exists vs v, experiment_vials F uuid Tspwplib SimpleBranchCut = Ok vs /\ In v vs /\ ~ tabulated (all_generations F) (fv_data v)) /\
  (exists vs v, experiment_vials F uuid Londonaq Dryrun = Ok vs /\ In v vs /\ ~ tabulated (all_generations F) (fv_data v)).
Proof.
  exists (mkFiles (fun _ _ _ => 0%Z) (fun _ _ => 0) (fun _ _ => 0%Z) (fun _ => 0) (fun _ => "EXPLICIT") ["gen1"; "gen2"; "gen3"]), (fun i => i).
  cbn [all_generations laq_cost]. do 3 (split; [cbn; tauto|]). split; [cbn; intuition discriminate|]. split.
  - eexists. exists (mkFullVial 0 (mkData Tspwplib "EUC_2D" "st70" 0 0 (Some 25%Z) (Some "gen1") None (Some 0%Z))
      (hd (mkFull (mkModel false false (mkParams SolvePctsp None None None) None None None None None None None None None None None) false)
         (product_of_model_params [BfsExtensionCollapse; SuurballesHeuristic; SolvePctsp] false 2 1 four_hours)) (mkPre false false true false false)).
    split; [reflexivity|]. split; [left; reflexivity|]. intros (_ & _ & k & g & E & _). discriminate E.
  - eexists. exists (mkFullVial 0 (mkData Londonaq "EXPLICIT" "laqtinyA" 200 0 None None None None)
      (hd (mkFull (mkModel false false (mkParams SolvePctsp None None None) None None None None None None None None None None None) false)
         (product_of_model_params [BfsExtensionCollapse; SuurballesHeuristic; SolvePctsp] false 2 1 10)) (mkPre false false true false false)).
    split; [reflexivity|]. split; [left; reflexivity|]. intros (I & _). cbn in I. intuition discriminate.
Qed.
Print Assumptions C75_experiments_refuted.

(** ** The commands *)

(** The command londonaq runs its vial on the graph that it looked at. *)
Theorem C75_londonaq_command : forall W R uuid name cost quota leaves params v, londonaq_vial W uuid name cost quota leaves params = Ok v ->
  londonaq_root R = Some true -> ~ In cost ["UNIFORM_RANDOM"; "MST"; "SEMI_MST"] ->
  exists G root ds, dataset_londonaq W name = Ok (G, root :: ds) /\ dc_root (fv_data v) = root /\ dc_quota (fv_data v) = quota /\
    (forall n pr, load_vial W R n pr (fv_data v) = Ok (G, pr)) /\
    fv_params v = params /\ fv_uuid v = uuid /\ fv_pre v = mkPre false leaves true false false.
Proof. exact londonaq_command_graph. Qed.
Print Assumptions C75_londonaq_command.

(** If a demand is missing, neither this command nor the table gets beyond the file. *)
Theorem C75_no_demand : forall W uuid name cost quota leaves params g ds v, w_londonaq W name = Ok (g, ds) -> weighted g -> vertex (ag_adj g) v ->
  ag_demand g v = None ->
  dataset_londonaq W name = Throw KeyErrorPy /\ londonaq_vial W uuid name cost quota leaves params = Throw KeyErrorPy.
Proof. exact no_demand. Qed.
Print Assumptions C75_no_demand.

(** The command tsplib runs the algorithm on the graph of its options as it is, or without its leaves if they are to be removed. *)
Theorem C75_tsplib_command : forall W R component bicomps depth algo uuid alpha cost gen name kappa quota root leaves params G pr h,
  let v := tsplib_vial uuid alpha cost gen name kappa quota root leaves params in let H := mkPy h (pg_cost G) (pg_prize G) in
  good_files W -> load_vial W R 0 None (fv_data v) = Ok (G, pr) ->
  (if leaves then remove_leaves depth (pg_adj G) = Ok h else h = pg_adj G) ->
  fv_data v = mkData Tspwplib cost name quota root (Some alpha) (Some gen) kappa (Some 0%Z) /\ fv_params v = params /\
  described W 0 (fv_data v) G /\
  (forall z, algo v H = Ok z -> lab_run W R (run_loaded component bicomps depth algo) [v] = (Ok tt, [(uuid, z)])) /\
  (forall e, algo v H = Throw e -> lab_run W R (run_loaded component bicomps depth algo) [v] = (Ok tt, [])).
Proof.
  intros W R component bicomps depth algo uuid alpha cost gen name kappa quota root leaves params G pr h v H GF E L.
  split; [reflexivity|]. split; [reflexivity|]. split; [exact (proj2 (load_described _ _ _ _ _ _ _ GF E))|].
  assert (X : run_loaded component bicomps depth algo v G = algo v H).
  { unfold run_loaded, H. cbn. destruct leaves; [rewrite L|rewrite L]; reflexivity. }
  split; intros z Ez; unfold lab_run; cbn [lab_rounds]; rewrite E, X, Ez; reflexivity.
Qed.
Print Assumptions C75_tsplib_command.

(** ** A case *)

(** A triangle with a pendant vertex. *)
Definition case_adj : nxgraph := [(0, [1; 2; 3]); (1, [0; 2]); (2, [0; 1]); (3, [0])].
Definition case_weight (u v : nat) : option Z := if has_edge case_adj u v then Some (Z.of_nat (10 + u + v)) else None.
Definition case_londonaq : attr_graph := mkAttr case_adj case_weight (fun _ _ => None) (fun v => Some (Z.of_nat v)) (fun _ => None).
Definition case_oplib : attr_graph := mkAttr case_adj case_weight (fun _ _ => None) (fun _ => None) (fun _ => None).
Definition case_scores : list (nat * Z) := [(0, 0%Z); (1, 7%Z); (2, 8%Z); (3, 9%Z); (50, 1%Z)].
(** Edges between even vertices are removed. *)
Definition case_sparse (G : pygraph) : pygraph :=
  mkPy (map (fun '(v, l) => (v, filter (fun u => negb (Nat.even u && Nat.even v)) l)) (pg_adj G)) (pg_cost G) (pg_prize G).
Definition case_world : world :=
  mkWorld (fun _ _ => Ok (case_oplib, [0], case_scores)) (fun _ => Ok (case_londonaq, [0])) (fun G _ => Ok (case_sparse G))
    (fun n es => map (fun e => (e, Z.of_nat n)) es) (fun G => Ok (map (fun e => (e, 2%Z)) (py_edges G))) (fun _ => Ok []).
Definition case_roots : roots := mkRoots (Some (true, true)) (Some true).
Definition case_data (ds : dataset_name) (cost : string) (kappa : option Z) : data_config :=
  mkData ds cost (match ds with Londonaq => "laqbbA" | Tspwplib => "eil51" end) 5 0 None (Some "gen1") kappa None.

Lemma case_adj_iff u v : adj case_adj u v <-> has_edge case_adj u v = true.
Proof. rewrite has_edge_iff; [reflexivity|]. cbn. repeat (constructor; [cbn; intuition discriminate|]). constructor. Qed.

Lemma case_undirected : undirected case_adj.
Proof.
  split; [cbn; repeat (constructor; [cbn; intuition discriminate|]); constructor|]. split.
  - intros v l I. cbn in I. repeat destruct I as [I|I]; try (injection I as <- <-; repeat (constructor; [cbn; intuition discriminate|]); constructor). destruct I.
  - intros u v (l & I & J). cbn in I. repeat destruct I as [I|I]; try (injection I as <- <-; cbn in J; repeat destruct J as [J|J]; subst; try destruct J; apply case_adj_iff; reflexivity). destruct I.
Qed.

Lemma case_good : good_files case_world /\ keeps_attributes case_world /\ all_scored case_world.
Proof.
  assert (Y : forall u v, has_edge case_adj u v = has_edge case_adj v u).
  { intros u v. apply Bool.eq_true_iff_eq. rewrite <- !case_adj_iff. split; apply case_undirected. }
  assert (WE : forall d p, weighted (mkAttr case_adj case_weight (fun _ _ => None) d p)).
  { intros d p. split; [exact case_undirected|]. cbn. split.
    - intros u v. unfold case_weight. rewrite Y. destruct (has_edge case_adj v u); [f_equal; lia|reflexivity].
    - intros u v A. unfold case_weight. apply case_adj_iff in A. rewrite A. eauto. }
  assert (SA : forall G u v, adj (pg_adj (case_sparse G)) u v <-> adj (pg_adj G) u v /\ (Nat.even u && Nat.even v)%bool = false).
  { intros G u v. unfold adj, case_sparse. cbn. split.
    - intros (l & I & J). apply in_map_iff in I as ((w & l') & E & I). injection E as -> <-. apply filter_In in J as (J & N).
      apply Bool.negb_true_iff in N. rewrite Bool.andb_comm in N. split; [eauto|exact N].
    - intros ((l & I & J) & N). eexists. split; [apply in_map_iff; exists (u, l); split; [reflexivity|exact I]|]. apply filter_In. split; [exact J|].
      apply Bool.negb_true_iff. rewrite Bool.andb_comm. exact N. }
  assert (SV : forall G, map fst (pg_adj (case_sparse G)) = map fst (pg_adj G)).
  { intro G. cbn. rewrite map_map. apply map_ext. intros (v, l). reflexivity. }
  split; [|split].
  - split; [|split].
    + intros name g ds E. injection E as <- <-. split; [apply WE|]. intros v _. cbn. eauto.
    + intros gen name g ds sc E. injection E as <- <- <-. split; [apply WE|]. intros v _. auto.
    + intros G k G' (A & B & C) E. injection E as <-. split; [rewrite SV; exact A|]. split.
      * intros v l I. cbn in I. apply in_map_iff in I as ((w & l') & E & I). injection E as -> <-. apply NoDup_filter. exact (B _ _ I).
      * intros u v H. apply SA in H as (H & N). apply SA. split; [apply C, H|]. rewrite Bool.andb_comm. exact N.
  - intros G k G' (A & B) E. injection E as <-. split.
    + intros v V. unfold vertex in V. rewrite SV in V. exact (A v V).
    + intros u v H. apply SA in H as (H & _). exact (B u v H).
  - intros gen name g ds sc E. injection E as <- <- <-. intros v V. cbn in V. repeat destruct V as [<-|V]; try (eexists; reflexivity). destruct V.
Qed.

(** With kappa and the cost function MST: the edge of 0 and 2 is gone, all costs are 2, and the prizes are the scores. *)
Example C75_case : good_files case_world /\ root_there case_roots (case_data Tspwplib "MST" (Some 5%Z)) /\
  (exists G pr, load_vial case_world case_roots 0 None (case_data Tspwplib "MST" (Some 5%Z)) = Ok (G, pr) /\
    pg_adj G = [(0, [1; 3]); (1, [0; 2]); (2, [1]); (3, [0])] /\
    get_edge_attributes G = [((0, 1), 2%Z); ((0, 3), 2%Z); ((1, 2), 2%Z)] /\ get_node_attributes G = [(0, 0%Z); (1, 7%Z); (2, 8%Z); (3, 9%Z)]) /\
  (exists G pr, load_vial case_world case_roots 3 None (case_data Londonaq "EXPLICIT" None) = Ok (G, pr) /\
    get_edge_attributes G = [((0, 1), 11%Z); ((0, 2), 12%Z); ((0, 3), 13%Z); ((1, 2), 13%Z)] /\ get_node_attributes G = [(0, 0%Z); (1, 1%Z); (2, 2%Z); (3, 3%Z)]) /\
  exists G pr, load_vial case_world case_roots 3 None (case_data Tspwplib "UNIFORM_RANDOM" (Some 0%Z)) = Ok (G, pr) /\
    get_edge_attributes G = [((0, 1), 3%Z); ((0, 2), 3%Z); ((0, 3), 3%Z); ((1, 2), 3%Z)].
Proof.
  split; [apply case_good|]. split; [reflexivity|].
  split; [do 2 eexists; vm_compute; repeat split|]. split; [do 2 eexists; vm_compute; repeat split|]. do 2 eexists; vm_compute; repeat split.
Qed.

(** Two vials, of which the first fails in the algorithm; then one whose directory is not there. *)
Example C75_rounds_case :
  let p := mkFull (mkModel false false (mkParams SolvePctsp None None None) None None None None None None None None None None None) false in
  let vs := [mkFullVial 1 (case_data Londonaq "EXPLICIT" None) p (mkPre false false true false false);
             mkFullVial 2 (case_data Tspwplib "EUC_2D" (Some 5%Z)) p (mkPre false false true false false)] in
  let solve (v : full_vial) (G : pygraph) := if Nat.eqb (fv_uuid v) 1 then Throw ValueErrorPy else Ok (Z.of_nat (List.length (py_edges G))) in
  NoDup (map fv_uuid vs) /\ lab_run case_world case_roots solve vs = (Ok tt, [(2, 3%Z)]) /\
  lab_run case_world (mkRoots (Some (true, true)) None) solve vs = (Throw FileNotFoundErrorPy, []) /\
  lab_run case_world (mkRoots (Some (true, true)) None) solve (rev vs) = (Throw FileNotFoundErrorPy, [(2, 3%Z)]).
Proof. cbn zeta. split; [cbn; repeat (constructor; [cbn; intuition discriminate|]); constructor|]. repeat split. Qed.

(** The table of londonaq for this world, with the number of vertices and edges as statistics. *)
Example C75_table_case : let d := case_data Londonaq "EXPLICIT" None in
  let stats (G : pygraph) (root : nat) := Ok (mkInst (List.length (pg_adj G)) (List.length (py_edges G)) 0 0 0 (0, 1)%Z 0 0 0 0 0 (0, 1)%Z, 0%Q, 0%Q) in
  tabulated ["gen1"] d /\ root_is_depot case_world d /\ root_there case_roots d /\
  exists rows, stats_of_dataset (dataset_sources case_world ["gen1"] stats) Londonaq = Ok rows /\ List.length rows = 4.
Proof.
  cbn zeta. split; [|split; [|split]].
  - split; [cbn; tauto|]. split; [auto|]. cbn. intuition discriminate.
  - intros g ds E. injection E as <- <-. exists []. reflexivity.
  - reflexivity.
  - eexists. split; [vm_compute; reflexivity|reflexivity].
Qed.

(** The command tsplib with removal of leaves: the vertex 3 is gone. *)
Example C75_tsplib_case :
  let p := mkFull (mkModel false false (mkParams SolvePctsp None None None) None None None None None None None None None None None) false in
  let v := tsplib_vial 5 50 "EUC_2D" "gen1" "eil51" None 7 0 true p in
  exists G pr, load_vial case_world case_roots 0 None (fv_data v) = Ok (G, pr) /\
    remove_leaves 9 (pg_adj G) = Ok [(0, [1; 2]); (1, [0; 2]); (2, [0; 1])].
Proof. cbn zeta. do 2 eexists. split; vm_compute; reflexivity. Qed.

Example C75_command_case : exists v G, londonaq_vial case_world 4 "laqbbA" "EXPLICIT" 200 false
    (mkFull (mkModel false false (mkParams SolvePctsp None None None) None None None None None None None None None None None) false) = Ok v /\
  load_vial case_world case_roots 0 None (fv_data v) = Ok (G, None) /\ dc_root (fv_data v) = 0.
Proof. do 2 eexists. vm_compute. repeat split. Qed.

(** ** What happens with other files *)

(** One expects the prizes of a graph of londonaq to come from its file. If a demand is missing, they are the scores of the last
    instance of OPLib that was loaded before, and without one an UnboundLocalError stops all vials. *)
Theorem C75_stale_prizes_refuted : exists W R d d' g ds, dc_dataset d = Tspwplib /\ dc_dataset d' = Londonaq /\
  w_londonaq W (dc_graph_name d') = Ok (g, ds) /\ weighted g /\ ag_demand g 3 = None /\ ag_prize g 3 = None /\
  load_vial W R 0 None d' = Throw UnboundLocalErrorPy /\
  exists G pr G' pr', load_vial W R 0 None d = Ok (G, pr) /\ load_vial W R 1 pr d' = Ok (G', pr') /\ pg_prize G' 3 = Some 9%Z.
Proof.
  pose (g := mkAttr case_adj case_weight (fun _ _ => None) (fun v => if Nat.eqb v 3 then None else Some 1%Z) (fun _ => None)).
  exists (mkWorld (w_oplib case_world) (fun _ => Ok (g, [0])) (w_sparsify case_world) (w_random case_world) (w_mst case_world) (w_semi_mst case_world)).
  exists case_roots, (case_data Tspwplib "EUC_2D" None), (case_data Londonaq "EXPLICIT" None), g, [0].
  do 3 (split; [reflexivity|]). split.
  { destruct (proj1 (proj1 case_good) "x" case_londonaq [0] eq_refl) as ((A & B & C) & _). split; [exact A|]. split; [exact B|exact C]. }
  do 3 (split; [reflexivity|]). do 4 eexists. split; [reflexivity|]. split; [reflexivity|]. vm_compute. reflexivity.
Qed.
Print Assumptions C75_stale_prizes_refuted.

(** One expects the prizes of an instance of OPLib to be its scores, as in the table. If all its vertices have demands, vials are run
    with these, and the table is about another graph. *)
Theorem C75_demands_refuted : exists W R d G pr G' ds, dc_dataset d = Tspwplib /\ load_vial W R 0 None d = Ok (G, pr) /\
  dataset_oplib W "gen1" (dc_graph_name d) = Ok (G', ds) /\ dc_generation d = Some "gen1" /\ dc_kappa d = None /\
  pg_prize G 1 = Some 1%Z /\ pg_prize G' 1 = Some 7%Z.
Proof.
  exists (mkWorld (fun _ _ => Ok (case_londonaq, [0], case_scores)) (w_londonaq case_world) (w_sparsify case_world) (w_random case_world)
    (w_mst case_world) (w_semi_mst case_world)), case_roots, (case_data Tspwplib "EUC_2D" None).
  do 4 eexists. split; [reflexivity|]. split; [vm_compute; reflexivity|]. split; [vm_compute; reflexivity|]. vm_compute. repeat split.
Qed.
Print Assumptions C75_demands_refuted.
