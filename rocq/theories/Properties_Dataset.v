(** * Properties_Dataset: the theorems for C60 (pctsp/apps/dataset_app.py: statistics of an instance) *)
From Coq Require Import Lia Permutation.
From Verif Require Import Base Graph Spec Spec_Cover Spec_Python Spec_PyWrap Spec_Suurballe
  M_Python M_PyCycle M_PyWrap M_Suurballe M_DisjointMap Spec_Split M_Dataset Spec_Dataset.
From Verif Require Import P_Base P_Check P_Python P_PyWrap P_Suurballe P_SplitMap P_Dataset.
From Verif Require Import Properties_Python Properties_PyWrap Properties_Split.
Open Scope nat_scope.

(** All returned numbers but max_disjoint_paths_cost are what their names say: sizes, cost and
    prize of the graph before and after the preprocessing, and the largest prize of a pair. *)
Theorem C60_fields names_of depth bicomps W G c p vt vh D root dist paths cm pm st :
  stats_call names_of depth bicomps W G c p vt vh D root dist paths cm pm ->
  get_graph_stats names_of depth bicomps W D (vh root) dist paths root = Ok st ->
  measured (pg_adj W) (pg_cost W) (pg_prize W) (num_nodes st) (num_edges st) (total_cost_stat st) (total_prize_stat st) /\
  (exists u, (0 < biggest_disjoint_prize st)%Z /\ largest_prize (get_node_attributes W) cm pm u (biggest_disjoint_prize st) /\
     (u <> root -> costs_from c 1 ->
      exists t cost, tour_from G root t /\ any_cost G c t cost /\ prizes_total (get_node_attributes W) (removelast t) (biggest_disjoint_prize st))) /\
  disjoint_prize_ratio st = (biggest_disjoint_prize st, total_prize_stat st) /\
  (exists h, induced_subgraph h (pg_adj W) /\
     (forall v, vertex h v <-> vertex (pg_adj W) v /\ (v = root \/ exists t, cycle_at (adj (pg_adj W)) root t /\ In v t)) /\
     measured h (pg_cost W) (pg_prize W) (pre_num_nodes st) (pre_num_edges st) (pre_total_cost st) (pre_total_prize st)) /\
  pre_prize_ratio st = (pre_total_prize st, total_prize_stat st).
Proof.
  intros (U & AG & BL & SG & SC & DEP & NN & EM) E.
  destruct (stats_run names_of depth bicomps W G c p vt vh D root dist paths cm pm U AG BL SG SC DEP NN EM)
    as (T & s & tc & tp & pc & pp & ES & EC & M1 & ETP & M2 & IS & VH & z & o & HO & ER).
  rewrite ER in E. clear ER.
  destruct (ratio z tp) as [r|e|ub|] eqn:R1; cbn [bind] in E; try discriminate. destruct o as [u|]; [|discriminate].
  destruct (vertex_disjoint_cost_map (names_of u) T s) as [m|e|ub|]; cbn [bind] in E; try discriminate.
  destruct (py_max (map snd m)) as [x|e|ub|]; cbn [bind] in E; try discriminate.
  destruct (ratio pp tp) as [r'|e|ub|] eqn:R2; cbn [bind] in E; try discriminate. injection E as <-. cbn.
  unfold ratio in R1, R2. destruct (Z.eqb tp 0); try discriminate. injection R1 as <-. injection R2 as <-.
  split; [exact M1|]. split; [|split; [reflexivity|split; [|reflexivity]]].
  - destruct HO as (P & L). exists u. split; [exact P|]. split; [exact L|]. intros NR C1.
    destruct L as ((t & cost & ST) & _). exists t, cost.
    destruct (simple_start depth G c _ vt vh D _ root dist paths cm pm _ u t z cost SC DEP C1 (proj1 SG) (node_attr_NoDup W U)
      ltac:(intros v I; destruct AG as (AP & _); destruct (AP v I) as (y & EY); exists y; apply node_attr; split; [exact I|exact EY]) EM ST NR) as (TF & AC).
    split; [exact TF|]. split; [exact AC|]. destruct ST as (f & s' & _ & _ & PT & _). exact PT.
  - eexists. split; [exact IS|]. split; [exact VH|]. exact M2.
Qed.
Print Assumptions C60_fields.

(** If the total prize is 0 the function fails, and also if no pair has a positive prize (for
    instance because no cycle contains the root). *)
Theorem C60_errors names_of depth bicomps W G c p vt vh D root dist paths cm pm nodes edges cost total :
  stats_call names_of depth bicomps W G c p vt vh D root dist paths cm pm ->
  measured (pg_adj W) (pg_cost W) (pg_prize W) nodes edges cost total ->
  (total = 0%Z -> get_graph_stats names_of depth bicomps W D (vh root) dist paths root = Throw ZeroDivisionErrorPy) /\
  (total <> 0%Z -> no_prize (get_node_attributes W) cm pm ->
     get_graph_stats names_of depth bicomps W D (vh root) dist paths root = Throw TypeErrorPy).
Proof.
  intros (U & AG & BL & SG & SC & DEP & NN & EM) (_ & vs & ND & VS & _ & TOT).
  destruct (stats_run names_of depth bicomps W G c p vt vh D root dist paths cm pm U AG BL SG SC DEP NN EM)
    as (T & s & tc & tp & pc & pp & ES & EC & M1 & ETP & M2 & IS & VH & z & o & HO & ER).
  assert (EQ : tp = total).
  { rewrite ETP, TOT. apply zsum_perm. apply Permutation_map. apply NoDup_Permutation; [apply U|exact ND|]. intros v. symmetry. apply VS. }
  clear ETP TOT. subst tp. rewrite ER. clear ER. unfold ratio. split.
  - intros ->. reflexivity.
  - intros NZ NP. apply Z.eqb_neq in NZ. rewrite NZ. cbn [bind]. destruct o as [u|]; [|reflexivity].
    destruct HO as (P & ((t & cc & ST) & _)). specialize (NP _ _ _ _ ST). lia.
Qed.
Print Assumptions C60_errors.

(** If the vertex where the largest prize is reached has the same split names as the biggest
    vertex id, in particular if it is that vertex, then the call succeeds and
    max_disjoint_paths_cost is the largest cost of a pair. *)
Theorem C60_max_cost names_of depth bicomps W G c p vt vh D root dist paths cm pm nodes edges cost total v tour z x :
  stats_call names_of depth bicomps W G c p vt vh D root dist paths cm pm ->
  measured (pg_adj W) (pg_cost W) (pg_prize W) nodes edges cost total -> total <> 0%Z ->
  start_tour (get_node_attributes W) cm pm v tour z x -> (0 < z)%Z ->
  (forall u y, largest_prize (get_node_attributes W) cm pm u y -> names_of u = names_of (list_max (map fst (pg_adj W)))) ->
  exists st, get_graph_stats names_of depth bicomps W D (vh root) dist paths root = Ok st /\
    largest_value cm (max_disjoint_paths_cost st).
Proof.
  intros (U & AG & BL & SG & SC & DEP & NN & EM) (_ & vs & ND & VS & _ & TOT) NZ ST PZ NM.
  destruct (stats_run names_of depth bicomps W G c p vt vh D root dist paths cm pm U AG BL SG SC DEP NN EM)
    as (T & s & tc & tp & pc & pp & ES & EC & M1 & ETP & M2 & IS & VH & zz & o & HO & ER).
  assert (EQ : tp = total).
  { rewrite ETP, TOT. apply zsum_perm. apply Permutation_map. apply NoDup_Permutation; [apply U|exact ND|]. intros a. symmetry. apply VS. }
  clear ETP TOT. subst tp. rewrite ER. clear ER. unfold ratio. apply Z.eqb_neq in NZ. rewrite NZ. cbn [bind].
  destruct o as [u|]; [|destruct HO as (_ & HO); specialize (HO _ _ _ _ ST); lia].
  destruct HO as (_ & L). rewrite (NM u zz L), EC. cbn [bind].
  destruct (py_max_ok cm) as (m & EMX & LV).
  { intros ->. destruct ST as (f & s0 & _ & _ & _ & []). }
  rewrite EMX. cbn [bind]. eexists. split; [reflexivity|]. exact LV.
Qed.
Print Assumptions C60_max_cost.

(** ** cases *)

(** Four vertices 0 (root), 1, 2, 3 with all edges but 0-3; 3 has the largest prize. Here tails
    keep their number and heads are numbered from 4. *)
Definition dk_D : dgraph := [(0, [(4, 0%Z)]); (1, [(5, 0%Z)]); (2, [(6, 0%Z)]); (3, [(7, 0%Z)]); (4, [(1,
   1%Z); (2, 4%Z)]); (5, [(0, 1%Z); (2, 2%Z); (3, 5%Z)]); (6, [(0, 4%Z); (1, 2%Z); (3, 1%Z)]); (7, [(1, 5%Z);
   (2, 1%Z)])].
Definition dk_dist : list (nat * Z) := [(4, 0%Z); (1, 1%Z); (5, 1%Z); (0, 2%Z); (2, 3%Z); (6, 3%Z); (3, 4%Z);
   (7, 4%Z)].
Definition dk_paths : list (nat * list nat) := [(4, [4]); (1, [4; 1]); (2, [4; 1; 5; 2]); (5, [4; 1; 5]); (0,
   [4; 1; 5; 0]); (3, [4; 1; 5; 2; 6; 3]); (6, [4; 1; 5; 2; 6]); (7, [4; 1; 5; 2; 6; 3; 7])].
Definition dt_D : dgraph := [(0, [(3, 0%Z)]); (1, [(4, 0%Z)]); (2, [(5, 0%Z)]); (3, [(1, 1%Z); (2, 1%Z)]);
   (4, [(0, 1%Z); (2, 1%Z)]); (5, [(0, 1%Z); (1, 1%Z)])].
Definition dt_dist : list (nat * Z) := [(3, 0%Z); (1, 1%Z); (2, 1%Z); (4, 1%Z); (5, 1%Z); (0, 2%Z)].
Definition dt_paths : list (nat * list nat) := [(3, [3]); (1, [3; 1]); (2, [3; 2]); (4, [3; 1; 4]); (5, [3;
   2; 5]); (0, [3; 1; 4; 0])].
Definition de_D : dgraph := [(0, [(2, 0%Z)]); (1, [(3, 0%Z)]); (2, [(1, 1%Z)]); (3, [(0, 1%Z)])].
Definition de_dist : list (nat * Z) := [(2, 0%Z); (1, 1%Z); (3, 1%Z); (0, 2%Z)].
Definition de_paths : list (nat * list nat) := [(2, [2]); (1, [2; 1]); (3, [2; 1; 3]); (0, [2; 1; 3; 0])].

Definition dk_W (p1 p3 : Z) : pygraph := mkPy [(0, [1;2]); (1, [0;2;3]); (2, [0;1;3]); (3, [1;2])]
  (attrs_of [(0,1,1%Z);(0,2,4%Z);(1,2,2%Z);(1,3,5%Z);(2,3,1%Z)]) (dget [(0, 0%Z); (1, p1); (2, 1%Z); (3, p3)]).
Definition dk_rot (v : nat) : list nat :=
  match v with 0 => [1;3;2] | 1 => [3;2;0] | 2 => [0;1;3] | _ => [2;0;1] end.

Lemma dk_call p1 p3 : stats_call low_names 100 (fun _ => [[0;1;2;3]]) (dk_W p1 p3)
  (view_graph 4 (dk_W p1 p3)) (view_costs (dk_W p1 p3)) (view_prizes 4 (dk_W p1 p3)) (fun v => v) (fun v => 4 + v) dk_D 0 dk_dist dk_paths
  [(1, 7%Z); (2, 7%Z); (0, 10%Z); (3, 11%Z)]
  [(1, ([0; 2; 1], [0; 1])); (2, ([0; 2], [0; 1; 2])); (0, ([0; 2; 0], [0; 1; 0])); (3, ([0; 1; 3], [0; 2; 3]))].
Proof.
  assert (U : undirected (pg_adj (dk_W p1 p3))) by (apply undirectedb_ok; vm_compute; reflexivity).
  split; [exact U|]. split; [apply attributes_check; [exact U|vm_compute; reflexivity|vm_compute; reflexivity]|].
  split; [apply (one_block _ _ dk_rot); [reflexivity|vm_compute; reflexivity|vm_compute; reflexivity|exact U]|].
  split; [apply view_ok; [exact U|]; intros v I; cbn in I; lia|].
  split; [apply (low_call_check _ _ 3); [cbn; lia|cbn; tauto|vm_compute; reflexivity|vm_compute; reflexivity]|].
  split; [apply P_Suurballe.paths_withinb_ok; vm_compute; reflexivity|]. split; [apply costs_check; reflexivity|]. vm_compute. reflexivity.
Qed.

Example C60_case : get_graph_stats low_names 100 (fun _ => [[0;1;2;3]]) (dk_W 2 3) dk_D 4 dk_dist dk_paths 0 =
  Ok (mkInst 4 5 13 6 6 (6, 6)%Z 11 4 5 13 6 (6, 6)%Z).
Proof. vm_compute. reflexivity. Qed.

Example C60_max_case : start_tour (get_node_attributes (dk_W 2 3)) [(1, 7%Z); (2, 7%Z); (0, 10%Z); (3, 11%Z)]
    [(1, ([0; 2; 1], [0; 1])); (2, ([0; 2], [0; 1; 2])); (0, ([0; 2; 0], [0; 1; 0])); (3, ([0; 1; 3], [0; 2; 3]))]
    3 [0;1;3;2;0] 6 11 /\
  measured (pg_adj (dk_W 2 3)) (pg_cost (dk_W 2 3)) (pg_prize (dk_W 2 3)) 4 5 13 6 /\
  (forall u y, largest_prize (get_node_attributes (dk_W 2 3)) [(1, 7%Z); (2, 7%Z); (0, 10%Z); (3, 11%Z)]
    [(1, ([0; 2; 1], [0; 1])); (2, ([0; 2], [0; 1; 2])); (0, ([0; 2; 0], [0; 1; 0])); (3, ([0; 1; 3], [0; 2; 3]))] u y ->
    low_names u = low_names (list_max (map fst (pg_adj (dk_W 2 3))))).
Proof.
  assert (ST : start_tour (get_node_attributes (dk_W 2 3)) [(1, 7%Z); (2, 7%Z); (0, 10%Z); (3, 11%Z)]
    [(1, ([0; 2; 1], [0; 1])); (2, ([0; 2], [0; 1; 2])); (0, ([0; 2; 0], [0; 1; 0])); (3, ([0; 1; 3], [0; 2; 3]))]
    3 [0;1;3;2;0] 6 11).
  { exists [0;1;3], [0;2;3]. split; [unfold entry; cbn; tauto|]. split; [exists 0, 3, [1], [2]; auto|]. split; [|unfold entry; cbn; tauto].
    change 6%Z with (0 + (2 + (3 + (1 + 0))))%Z. repeat (constructor; [unfold entry; cbn; tauto|]). constructor. }
  split; [exact ST|]. destruct (dk_call 2 3) as (U & AG & _). split.
  - destruct (measured_ok (dk_W 2 3) U AG) as (tc & tp & E1 & E2 & _ & M).
    vm_compute in E1, E2. injection E1 as <-. injection E2 as <-. exact M.
  - intros u y ((t & x & S0) & H). specialize (H _ _ _ _ ST).
    apply start_prize in S0; [|apply node_attr_NoDup; exact U]. destruct S0 as (f & s & I & ET & EZ). unfold entry in I. cbn [In] in I.
    destruct I as [I|[I|[I|[I|[]]]]]; injection I as <- <- <-; vm_compute in ET; injection ET as <-; vm_compute in EZ; injection EZ as <-;
      try (exfalso; apply H; reflexivity). reflexivity.
Qed.

(** Two vertices: no pair of paths, TypeError. *)
Definition de_W : pygraph := mkPy [(0, [1]); (1, [0])] (attrs_of [(0,1,1%Z)]) (dget [(0, 1%Z); (1, 1%Z)]).
Example C60_error_case : stats_call low_names 100 (fun _ => [[0;1]]) de_W (view_graph 2 de_W) (view_costs de_W) (view_prizes 2 de_W)
    (fun v => v) (fun v => 2 + v) de_D 0 de_dist de_paths [] [] /\
  measured (pg_adj de_W) (pg_cost de_W) (pg_prize de_W) 2 1 1 2 /\ no_prize (get_node_attributes de_W) [] [] /\
  get_graph_stats low_names 100 (fun _ => [[0;1]]) de_W de_D 2 de_dist de_paths 0 = Throw TypeErrorPy.
Proof.
  assert (U : undirected (pg_adj de_W)) by (apply undirectedb_ok; vm_compute; reflexivity).
  assert (AG : attributes_given (pg_adj de_W) (pg_cost de_W) (pg_prize de_W)) by (apply attributes_check; [exact U|vm_compute; reflexivity|vm_compute; reflexivity]).
  split; [|split; [|split]].
  - split; [exact U|]. split; [exact AG|].
    split; [|split; [apply view_ok; [exact U|]; intros v I; cbn in I; lia|]].
    + split; [|split].
      * intros c [<-|[]]. split; [apply nodupb_ok; reflexivity|]. intros v I. exact I.
      * intros r t C. exists [0;1]. split; [left; reflexivity|]. intros v I.
        destruct (cycle_two_neighbours _ _ _ U C v I) as (a & _ & _ & _ & _ & _ & _ & A & _). apply adj_vertex in A. exact A.
      * intros c u v [<-|[]] L. cbn in L. lia.
    + split; [apply (low_call_check _ _ 1); [cbn; lia|cbn; tauto|vm_compute; reflexivity|vm_compute; reflexivity]|].
      split; [apply P_Suurballe.paths_withinb_ok; vm_compute; reflexivity|]. split; [apply costs_check; reflexivity|]. vm_compute. reflexivity.
  - destruct (measured_ok de_W U AG) as (tc & tp & E1 & E2 & _ & M). vm_compute in E1, E2. injection E1 as <-. injection E2 as <-. exact M.
  - intros v t z x (f & s & [] & _).
  - vm_compute. reflexivity.
Qed.

(** ** what goes wrong *)

(** max_disjoint_paths_cost is in general not the largest cost of a pair: the vertex with the
    largest prize is passed as if it were the biggest vertex id, so with this numbering the
    vertices above it are left out. *)
Theorem C60_max_cost_refuted : exists names_of depth bicomps W G c p vt vh D root dist paths cm pm st,
  stats_call names_of depth bicomps W G c p vt vh D root dist paths cm pm /\
  (forall k V, (forall v, In v V -> v <= k) -> names_ok V (fun v => v) (fun v => S k + v) (names_of k)) /\
  get_graph_stats names_of depth bicomps W D (vh root) dist paths root = Ok st /\
  ~ largest_value cm (max_disjoint_paths_cost st).
Proof.
  do 15 eexists. exists (mkInst 4 5 13 3 3 (3, 3)%Z 10 4 5 13 3 (3, 3)%Z). split; [exact (dk_call 2 0)|].
  split; [exact low_names_ok|]. split; [vm_compute; reflexivity|].
  intros (_ & H). assert (I : entry [(1, 7%Z); (2, 7%Z); (0, 10%Z); (3, 11%Z)] 3 11%Z) by (unfold entry; cbn; tauto).
  specialize (H _ _ I). cbn in H. lia.
Qed.
Print Assumptions C60_max_cost_refuted.

(** The pair of the root counts the root twice: disjoint_prize_ratio can exceed 1, so
    biggest_disjoint_prize is not the prize of any set of vertices. *)
Definition dt_W : pygraph := mkPy [(0, [1;2]); (1, [0;2]); (2, [0;1])] (attrs_of [(0,1,1%Z);(0,2,1%Z);(1,2,1%Z)])
  (dget [(0, 5%Z); (1, 1%Z); (2, 1%Z)]).
Theorem C60_ratio_refuted : exists names_of depth bicomps W G c p vt vh D root dist paths cm pm st a b,
  stats_call names_of depth bicomps W G c p vt vh D root dist paths cm pm /\ costs_from c 1 /\
  get_graph_stats names_of depth bicomps W D (vh root) dist paths root = Ok st /\
  disjoint_prize_ratio st = (a, b) /\ (0 < b < a)%Z.
Proof.
  exists low_names, 100, (fun _ => [[0;1;2]]), dt_W, (view_graph 3 dt_W), (view_costs dt_W), (view_prizes 3 dt_W), (fun v => v), (fun v => 3 + v),
    dt_D, 0, dt_dist, dt_paths.
  assert (U : undirected (pg_adj dt_W)) by (apply undirectedb_ok; vm_compute; reflexivity).
  do 5 eexists. split; [|split; [apply costs_check; reflexivity|split; [vm_compute; reflexivity|split; [reflexivity|lia]]]].
  split; [exact U|]. split; [apply attributes_check; [exact U|vm_compute; reflexivity|vm_compute; reflexivity]|].
  split; [apply (one_block _ _ (fun v => match v with 0 => [1;2] | 1 => [2;0] | _ => [0;1] end)); [reflexivity|vm_compute; reflexivity|vm_compute; reflexivity|exact U]|].
  split; [apply view_ok; [exact U|]; intros v I; cbn in I; lia|].
  split; [apply (low_call_check _ _ 2); [cbn; lia|cbn; tauto|vm_compute; reflexivity|vm_compute; reflexivity]|].
  split; [apply P_Suurballe.paths_withinb_ok; vm_compute; reflexivity|]. split; [apply costs_check; reflexivity|]. vm_compute. reflexivity.
Qed.
Print Assumptions C60_ratio_refuted.
