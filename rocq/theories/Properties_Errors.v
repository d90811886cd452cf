(** * Properties_Errors: which exception is raised when (C26, C27, C37, C43, C53, C54, C56) *)
From Coq Require Import String Lia ZArith List.
From Verif Require Import Base P_Base Spec M_Stats M_Events P_Stats M_Lab Spec_Lab P_Lab M_Python Spec_Python P_Python M_PyCycle
  M_PyWrap P_Dijkstra Spec_Errors P_Errors.
Import ListNotations.
Open Scope string_scope.
Open Scope list_scope.
Open Scope Z_scope.

(** ** C26: reading a summary *)

(** The C++ reader answers exactly when the file has every key with a number of its type, and throws
    the exception of yaml-cpp otherwise; two numbers of the answer are exchanged
    (see C26_yaml_round_trip_refuted). *)
Theorem C26_yaml_reader : forall (D : Type) (read : string -> option D) n, NoDup (map fst n) ->
  let holds := holds_summary read (int_field (-2147483648) 2147483647) (int_field 0 4294967295)
    (int_field (-9223372036854775808) 9223372036854775807) n in
  (forall s, read_summary_yaml read (Some n) = Ok s <-> holds (exchanged s)) /\
  ((exists s, holds s) \/ read_summary_yaml read (Some n) = Throw YamlBadConversion).
Proof.
  intros D read n N holds. destruct (yaml_reads read n N) as (H & T). split; [exact H|].
  destruct T as [(s & E)|E]; [left; exists (exchanged s); now apply H|right; exact E].
Qed.
Print Assumptions C26_yaml_reader.

(** The Python reader answers exactly when the file has every key with a number, and gives what the
    file holds. *)
Theorem C26_python_reader : forall (D : Type) (read : string -> option D) n, NoDup (map fst n) ->
  let holds := holds_summary read any_int_field any_int_field any_int_field n in
  (forall s, py_from_yaml read (Some n) = Ok s <-> holds s) /\
  ((exists s, holds s) \/ py_from_yaml read (Some n) = Throw ValueErrorPy).
Proof.
  intros D read n N holds. destruct (py_yaml_reads read n N) as (H & T). split; [exact H|].
  destruct T as [(s & E)|E]; [left; exists s; now apply H|right; exact E].
Qed.
Print Assumptions C26_python_reader.

(** No file: Python raises; the C++ reader means to throw, and copies a string that has not been
    constructed (exception.hh:92-94) on the way. *)
Theorem C26_no_file : forall (D : Type) (read : string -> option D),
  read_summary_yaml read None = UB Uninit /\ py_from_yaml read None = Throw NotFoundPy.
Proof. split; reflexivity. Qed.
Print Assumptions C26_no_file.

Definition summary_file : list (string * string) :=
  [("status", "11"); ("lower_bound", "5"); ("upper_bound", "7"); ("num_cost_cover_disjoint_paths", "1");
   ("num_cost_cover_shortest_paths", "2"); ("nconss_presolve_disjoint_paths", "3");
   ("nconss_presolve_shortest_paths", "4"); ("num_cycle_cover", "5"); ("num_nodes", "6");
   ("num_sec_disjoint_tour", "7"); ("num_sec_maxflow_mincut", "8")].

(** A complete file; without its last line; with a negative counter, which only Python takes. *)
Example C26_reader_case : NoDup (map fst summary_file) /\
  read_summary_yaml undec (Some summary_file) = Ok (mkSummary 11 5 7 1 3 2 4 5 6 7 8) /\
  py_from_yaml undec (Some summary_file) = Ok (mkSummary 11 5 7 1 2 3 4 5 6 7 8) /\
  read_summary_yaml undec (Some (removelast summary_file)) = Throw YamlBadConversion /\
  py_from_yaml undec (Some (removelast summary_file)) = Throw ValueErrorPy /\
  read_summary_yaml undec (Some (removelast summary_file ++ [("num_sec_maxflow_mincut", "-8")])) = Throw YamlBadConversion /\
  py_from_yaml undec (Some (removelast summary_file ++ [("num_sec_maxflow_mincut", "-8")])) =
    Ok (mkSummary 11 5 7 1 2 3 4 5 6 7 (-8)).
Proof.
  split; [|vm_compute; auto 10]. cbn. repeat constructor; cbn; intuition discriminate.
Qed.

(** ** C27: the summary of a run *)

(** Every number of the summary is the one named, and zero without the handler that counts it. *)
Theorem C27_summary : forall (D : Type) status (lower upper : D) nodes spcc dpcc cycle_cover nnodes,
  let s := get_summary_stats status lower upper nodes spcc dpcc cycle_cover nnodes in
  sm_status s = status /\ sm_lower s = lower /\ sm_upper s = upper /\
  counters dpcc (sm_cc_disjoint s) (sm_pre_disjoint s) /\ counters spcc (sm_cc_shortest s) (sm_pre_shortest s) /\
  sm_cycle_cover s = cycle_cover /\ sm_nodes s = nnodes /\
  match nodes with
  | None => sm_sec_disjoint s = 0 /\ sm_sec_maxflow s = 0
  | Some l => sum_uint (map ns_sec_disjoint l) (sm_sec_disjoint s) /\ sum_uint (map ns_sec_maxflow l) (sm_sec_maxflow s)
  end.
Proof.
  intros D st lo up nodes sp dp cc nn. unfold get_summary_stats, counters.
  destruct nodes as [l|], sp as [(a & b)|], dp as [(c & d)|]; cbn;
    repeat (split; [solve [reflexivity | auto]|]);
    try (split; [apply num_disjoint_uint|apply num_maxflow_uint]); auto.
Qed.
Print Assumptions C27_summary.

Example C27_summary_case :
  get_summary_stats 11 5 7 (Some [mkNode 0 1 2 3 0 0 0 1 0; mkNode 0 2 5 6 0 0 0 1 0]) (Some (20, 21)) (Some (30, 31)) 40 50 =
    mkSummary 11 5 7 30 20 31 21 40 50 7 9 /\
  get_summary_stats 11 5 7 None None None 40 50 = mkSummary 11 5 7 0 0 0 0 40 50 0 0.
Proof. vm_compute. auto. Qed.

(** ** C43: batches and results *)

(** The nbatches command refuses every batch size that is not positive. *)
Theorem C43_nbatches_app : forall n b : Z, 0 <= n < 2 ^ 53 -> b < 2 ^ 53 ->
  (b <= 0 /\ nbatches_app n b = Throw ValueErrorPy) \/
  (0 < b /\ exists k, nbatches_app n b = Ok k /\ is_ceiling n b k).
Proof.
  intros n b (N & L) LB. unfold nbatches_app. destruct (Z.leb_spec b 0); [left; auto|right].
  split; [lia|]. apply get_nbatches_ok; lia.
Qed.
Print Assumptions C43_nbatches_app.

Example C43_nbatches_app_ex : nbatches_app 10 1 = Ok 10 /\ nbatches_app 10 0 = Throw ValueErrorPy /\
  nbatches_app 10 (-3) = Throw ValueErrorPy.
Proof. vm_compute. auto. Qed.

(** Reading the results: one for every vial with a result, in order; missing and truncated files are
    passed over, a file with other fields raises. *)
Theorem C43_read_results : forall st vials,
  ((forall v, In v vials -> st (v_uuid v) <> BadFields) /\
   read_results_from_file st vials = Ok (stored_prizes st vials)) \/
  ((exists v, In v vials /\ st (v_uuid v) = BadFields) /\
   read_results_from_file st vials = Throw ValidationErrorPy).
Proof.
  intros st vials.
  destruct (Exists_dec (fun v => st (v_uuid v) = BadFields) vials) as [E|NE].
  { intros v. destruct (st (v_uuid v)); auto; right; discriminate. }
  - right. apply Exists_exists in E. split; [exact E|]. destruct E as (v & I & B). apply foldM_throw.
    + intros s x _. unfold read_result. destruct (st (v_uuid x)); eauto.
    + exists v. split; [exact I|]. intros s. unfold read_result. rewrite B. reflexivity.
  - left. assert (H : forall v, In v vials -> st (v_uuid v) <> BadFields).
    { intros v I B. apply NE. apply Exists_exists. eauto. }
    split; [exact H|]. exact (results_read st vials H []).
Qed.
Print Assumptions C43_read_results.

Example C43_read_results_case :
  let st u := match u with 0%nat => ResultFile 4 | 1%nat => NoFile | 2%nat => NotJson | 3%nat => ResultFile 9 | _ => BadFields end in
  read_results_from_file st [mkVial 3 5; mkVial 1 5; mkVial 2 5; mkVial 0 5] = Ok [9; 4] /\
  read_results_from_file st [mkVial 3 5; mkVial 7 5; mkVial 0 5] = Throw ValidationErrorPy.
Proof. vm_compute. auto. Qed.

Open Scope nat_scope.

(** ** C37, C53: preprocessing *)

(** The degree counts the neighbours other than the vertex; an unknown vertex is an exception. *)
Theorem C37_degree : forall g v, undirected g ->
  (~ vertex g v /\ degree_without_self_loops g v = Throw NotFoundPy) \/
  (vertex g v /\ exists l : list nat, degree_without_self_loops g v = Ok (List.length l) /\ NoDup l /\
     forall u, In u l <-> adj g v u /\ u <> v).
Proof.
  intros g v U. unfold degree_without_self_loops, nx_neighbors. destruct (dget g v) as [l|] eqn:E.
  - right. pose proof (dget_In _ _ _ E) as I. split; [apply (in_map fst) in I; exact I|].
    exists (filter (fun u => negb (Nat.eqb u v)) l). split; [reflexivity|].
    destruct U as (N & NL & SY). split; [apply NoDup_filter, (NL _ _ I)|].
    intros u. rewrite filter_In, Bool.negb_true_iff, Nat.eqb_neq. split; intros (A & B); split; auto.
    + exists l. auto.
    + destruct A as (l' & I' & J). rewrite (dget_some g v l' N I') in E. congruence.
  - left. split; [|reflexivity]. intros V. destruct (dget_key g v V). congruence.
Qed.
Print Assumptions C37_degree.

Example C37_degree_case : undirected [(0, [0; 1]); (1, [0])] /\
  degree_without_self_loops [(0, [0; 1]); (1, [0])] 0 = Ok 1 /\
  degree_without_self_loops [(0, [0; 1]); (1, [0])] 7 = Throw NotFoundPy.
Proof. split; [apply undirectedb_ok; vm_compute; reflexivity|]. vm_compute. auto. Qed.

(** The two cutoff switches are not implemented, whatever else is asked for. *)
Theorem C53_cutoffs : forall component bicomps depth pre (g : nxgraph) root,
  undirected g -> vertex g root -> List.length g < depth ->
  pre_shortest_path_cutoff pre = true \/ pre_disjoint_path_cutoff pre = true ->
  run_preprocessing component bicomps depth pre g root = Throw NotImplementedErrorPy.
Proof.
  intros component bicomps depth pre g r U V L C. unfold run_preprocessing, remove_components_disconnected_from_vertex.
  assert (M : memb r (nx_nodes g) = true) by (apply memb_In; exact V). rewrite M.
  assert (H : exists g1 : nxgraph, (if pre_components pre then Ok (nx_subgraph g (fun u => memb u (component g r))) else Ok g) = Ok g1 /\
    undirected g1 /\ List.length g1 < depth).
  { destruct (pre_components pre); eexists; (split; [reflexivity|]); [|auto]. split; [apply subgraph_undirected; exact U|].
    unfold nx_subgraph. rewrite map_length.
    assert (LE : forall (l : nxgraph) f, List.length (filter f l) <= List.length l).
    { intros l f. induction l as [|x l IH]; cbn; [lia|]. destruct (f x); cbn; lia. }
    specialize (LE g (fun '(v, _) => memb v (component g r))). cbn beta in LE. lia. }
  destruct H as (g1 & -> & U1 & L1). cbn [bind].
  assert (H : exists g2, (if pre_leaves pre then remove_leaves depth g1 else Ok g1) = Ok g2).
  { destruct (pre_leaves pre); [|eauto]. destruct (remove_leaves_cycles depth g1 U1 L1) as (h & E & _). eauto. }
  destruct H as (g2 & ->). cbn [bind]. destruct C as [-> | ->]; [reflexivity|]. destruct (pre_shortest_path_cutoff pre); reflexivity.
Qed.
Print Assumptions C53_cutoffs.

(** Restricting to the component of an unknown vertex is a KeyError. *)
Theorem C53_unknown_root : forall component bicomps depth pre g root, ~ vertex g root -> pre_components pre = true ->
  run_preprocessing component bicomps depth pre g root = Throw KeyErrorPy.
Proof.
  intros component bicomps depth pre g r V C. unfold run_preprocessing, remove_components_disconnected_from_vertex.
  rewrite C. replace (memb r (nx_nodes g)) with false; [reflexivity|]. symmetry. apply memb_not_In. exact V.
Qed.
Print Assumptions C53_unknown_root.

Example C53_errors_case : let g := [(0, [1; 2]); (1, [0; 2]); (2, [0; 1])] in
  undirected g /\ vertex g 0 /\ List.length g < 4 /\ ~ vertex g 5 /\
  run_preprocessing (fun _ _ => [0; 1; 2]) (fun _ => [[0; 1; 2]]) 4 (mkPre true true true false true) g 0 = Throw NotImplementedErrorPy /\
  run_preprocessing (fun _ _ => [0; 1; 2]) (fun _ => [[0; 1; 2]]) 4 (mkPre true true true true false) g 0 = Throw NotImplementedErrorPy /\
  run_preprocessing (fun _ _ => [0; 1; 2]) (fun _ => [[0; 1; 2]]) 4 (mkPre true true true false true) g 5 = Throw KeyErrorPy.
Proof.
  cbv zeta. split; [apply undirectedb_ok; vm_compute; reflexivity|]. split; [cbn; auto|]. split; [cbn; lia|].
  split; [cbn; lia|]. vm_compute. auto.
Qed.

(** ** C54: random tours *)

(** A root without prize is a KeyError, a root that is not in the graph a ValueError, and a map without
    pairs for other vertices a ValueError. *)
Theorem C54_errors : forall prize_map nodes root quota rnd,
  (~ In root (map fst prize_map) -> random_tour_complete_graph prize_map nodes root quota rnd = Throw KeyErrorPy) /\
  (In root (map fst prize_map) -> ~ In root nodes ->
     random_tour_complete_graph prize_map nodes root quota rnd = Throw ValueErrorPy) /\
  forall paths_map, NoDup (map fst paths_map) -> (forall v, In v (map fst paths_map) -> v = root) ->
    random_tour_from_disjoint_paths_map paths_map root rnd = Throw ValueErrorPy.
Proof.
  intros pm nodes r q rnd. unfold random_tour_complete_graph. repeat apply conj.
  - intros H. rewrite (dget_none pm r H). reflexivity.
  - intros H NI. destruct (dget_key pm r H) as (p & ->). rewrite (py_remove_none nodes r NI). reflexivity.
  - intros paths N H. unfold random_tour_from_disjoint_paths_map.
    destruct paths as [|(v & a) paths]; [reflexivity|]. cbn in N, H. pose proof (H v (or_introl eq_refl)) as ->.
    destruct paths as [|(w & b) paths].
    + cbn. rewrite Nat.eqb_refl. reflexivity.
    + exfalso. cbn in N, H. pose proof (H w (or_intror (or_introl eq_refl))) as ->. inversion N as [|? ? NI _]; subst. apply NI. left. reflexivity.
Qed.
Print Assumptions C54_errors.

Example C54_errors_case :
  random_tour_complete_graph [(1, 3%Z)] [0; 1] 0 5%Z [0] = Throw KeyErrorPy /\
  random_tour_complete_graph [(0, 2%Z); (1, 3%Z)] [1] 0 5%Z [0] = Throw ValueErrorPy /\
  random_tour_from_disjoint_paths_map [(0, ([0], [0]))] 0 [1; 1] = Throw ValueErrorPy /\
  random_tour_from_disjoint_paths_map [] 0 [1; 1] = Throw ValueErrorPy.
Proof. vm_compute. auto. Qed.

(** ** C56: the starting tour and the options of a heuristic *)

(** The algorithms built on disjoint paths raise ValueError when one of the maps is empty. *)
Theorem C56_empty_maps : forall tb set_order W quota root algorithm cost_map paths_map collapse_paths depth step,
  algorithm = SuurballesHeuristic \/ algorithm = SuurballesExtensionCollapse \/ algorithm = SuurballesPathExtensionCollapse ->
  cost_map = [] \/ paths_map = [] ->
  run_heuristic tb set_order W quota root algorithm cost_map paths_map collapse_paths depth step = Throw ValueErrorPy.
Proof.
  intros tb so W q r al cm pm cp d s AL E. unfold run_heuristic, run_heuristic_tour, heuristic_start.
  destruct AL as [-> | [-> | ->]]; destruct E as [-> | ->]; try destruct cm; reflexivity.
Qed.
Print Assumptions C56_empty_maps.

(** The algorithm suurballes_heuristic returns the edges of that tour. *)
Theorem C56_suurballes_heuristic : forall tb set_order W quota root cost_map paths_map collapse_paths depth step tour,
  cost_map <> [] -> paths_map <> [] ->
  suurballes_heuristic (get_node_attributes W) quota cost_map paths_map = Ok tour ->
  run_heuristic tb set_order W quota root SuurballesHeuristic cost_map paths_map collapse_paths depth step =
    Ok (edge_list_from_walk tour).
Proof.
  intros tb so W q r cm pm cp d s tour NC NP E. unfold run_heuristic, run_heuristic_tour, heuristic_start.
  destruct cm; [congruence|]. destruct pm; [congruence|]. cbn [bind]. rewrite E. reflexivity.
Qed.
Print Assumptions C56_suurballes_heuristic.

(** The path depth limit and the step size: None and 0 stand for the number of vertices and for 10,
    any other number for itself. *)
Theorem C56_options : forall tb set_order W quota root algorithm cost_map paths_map collapse_paths depth step t,
  algorithm = BfsPathExtensionCollapse \/ algorithm = SuurballesPathExtensionCollapse ->
  heuristic_start set_order W quota root algorithm cost_map paths_map = Ok t ->
  exists d s, run_heuristic_tour tb set_order W quota root algorithm cost_map paths_map collapse_paths depth step =
      py_path_extension_collapse tb W t root quota (match collapse_paths with Some b => b | None => false end) d s /\
    (depth = None \/ depth = Some 0%Z -> d = Z.of_nat (List.length (pg_adj W))) /\
    (forall z, depth = Some z -> z <> 0%Z -> d = z) /\
    (step = None \/ step = Some 0%Z -> s = 10%Z) /\ (forall z, step = Some z -> z <> 0%Z -> s = z).
Proof.
  intros tb so W q r al cm pm cp d s t AL E. unfold run_heuristic_tour. rewrite E. cbn [bind].
  exists (or_default d (Z.of_nat (List.length (pg_adj W)))), (or_default s 10).
  split; [destruct AL as [-> | ->]; reflexivity|].
  assert (O : forall o x, (o = None \/ o = Some 0%Z -> or_default o x = x) /\ (forall z, o = Some z -> z <> 0%Z -> or_default o x = z)).
  { intros o x. split; [intros [-> | ->]; reflexivity|]. intros z -> NZ. unfold or_default. now rewrite (proj2 (Z.eqb_neq z 0) NZ). }
  split; [apply O|]. split; [apply O|]. split; apply O.
Qed.
Print Assumptions C56_options.

Example C56_options_case : exists W, let paths := [(2, ([1; 2], [1; 3; 2])); (3, ([1; 3], [1; 2; 3]))] in
  let costs := [(2, 6%Z); (3, 6%Z)] in
  heuristic_start (fun l => l) W 3 1 BfsPathExtensionCollapse [] [] = Ok [1; 2; 3; 1] /\
  suurballes_heuristic (get_node_attributes W) 3 costs paths = Ok [1; 2; 3; 1] /\
  run_heuristic pick_first (fun l => l) W 3 1 SuurballesHeuristic costs paths None None None = Ok [(1, 2); (2, 3); (3, 1)] /\
  run_heuristic pick_first (fun l => l) W 3 1 SuurballesHeuristic costs [] None None None = Throw ValueErrorPy /\
  run_heuristic pick_first (fun l => l) W 3 1 BfsPathExtensionCollapse [] [] None (Some 0%Z) (Some 7%Z) =
    Ok [(1, 2); (2, 3); (3, 1)].
Proof.
  exists (mkPy [(1, [2; 3]); (2, [1; 3]); (3, [1; 2])] (fun _ _ => Some 2%Z) (fun _ => Some 1%Z)).
  cbv zeta. vm_compute. auto.
Qed.
