(** * Properties_ILP: C11, C19, C20, C35 *)
From Coq Require Import Permutation.
From Verif Require Import Base Graph Spec Spec_Cycle M_Walk M_Graph M_Solution M_ILP Spec_ILP.
From Verif Require Import P_Base P_Walk P_Check P_Cycle P_ILP P_CheckILP P_Model.
Open Scope nat_scope.

(** A five-vertex graph with two triangles sharing vertex 0 and an edge 2-3, costs, prizes;
    the same graph with the loops the model adds.  (Not a model of anything in /repo.) *)
Definition ilp_g : graph := mkGraph 5 [(0,1);(1,2);(2,0);(0,3);(4,3);(4,0);(2,3)].
Definition ilp_gl : graph :=
  mkGraph 5 [(0,1);(1,2);(2,0);(0,3);(4,3);(4,0);(2,3);(0,0);(1,1);(2,2);(3,3);(4,4)].
Definition ilp_c : list Z := [3;4;5;6;1;9;2]%Z.
Definition ilp_cl : list Z := [3;4;5;6;1;9;2;0;0;0;0;0]%Z.
Definition ilp_p : list Z := [0;7;8;2;1]%Z.
(** The incidence vectors of the cycle 0-1-2 and of the edge set 0-1-2-0 plus 0-3-4-0. *)
Definition ilp_s : sol := heuristic_sol [0;1;2;7;8;9].
Definition ilp_eight : sol := heuristic_sol [0;1;2;3;4;5;7;8;9;10;11].

(** ** C11 *)
Theorem C11_exact_with_loops : forall g c p quota root,
  graph_ok g -> no_parallel g -> all_loops g -> loops_cost_zero g c ->
  length c = length (ge g) -> prizes_within g p (- int_max) int_max ->
  (- int_max <= quota <= int_max)%Z -> root < gn g ->
  exists m, model_pctsp g [] c p quota root = Ok m /\ i_graph m = g /\ i_cost m = c /\
    forall s entries, binary g s -> var_entries g entries ->
      ((Forall (row_sat s) (i_cons m) /\ is_sol_simple_cycle g s entries = Ok true) <->
       exists t, tour_from g root t /\ incidence g t s /\ meets_quota p quota t) /\
      (forall t z, tour_from g root t -> incidence g t s -> walk_cost g c t z ->
         lin_value (s_num s) (i_obj m) = (z * s_den s)%Z).
Proof.
  intros g c p quota root Hg Hp Hl Hz Hc Hpr Hq Hr.
  destruct (model_pctsp_loops g [] c p quota root) as (rows & h & E & Hrows & _); auto.
  eexists. split; [exact E|]. split; [reflexivity|]. split; [reflexivity|].
  cbn [i_cons i_obj]. intros s entries Hb He. split.
  - apply rows_incidence; auto. apply (proj1 Hpr).
  - intros t z Ht Hi Hw. apply (incidence_objective g Hp s c root t z); auto.
Qed.
Print Assumptions C11_exact_with_loops.

(** The usual input, a graph without self loops: the model adds one loop per vertex, and
    its solutions are the cycles of the graph given, with their costs in that graph. *)
Theorem C11_exact_without_loops : forall g c p quota root,
  graph_ok g -> no_parallel g -> loop_free g ->
  length c = length (ge g) -> prizes_within g p (- int_max) int_max ->
  (- int_max <= quota <= int_max)%Z -> root < gn g ->
  exists m, model_pctsp g [] c p quota root = Ok m /\
    i_graph m = mkGraph (gn g) (ge g ++ map (fun v => (v, v)) (seq 0 (gn g))) /\
    forall s entries, binary (i_graph m) s -> var_entries (i_graph m) entries ->
      ((Forall (row_sat s) (i_cons m) /\
        is_sol_simple_cycle (i_graph m) s entries = Ok true) <->
       exists t, tour_from g root t /\ incidence (i_graph m) t s /\ meets_quota p quota t) /\
      (forall t z, tour_from g root t -> incidence (i_graph m) t s -> walk_cost g c t z ->
         lin_value (s_num s) (i_obj m) = (z * s_den s)%Z).
Proof.
  intros g c p quota root Hg Hp Hf Hc Hpr Hq Hr.
  destruct (C11_exact_with_loops (with_loops g) (c ++ repeat 0%Z (gn g)) p quota root)
    as (m & E & Eg & Ec & H).
  - now apply with_loops_ok.
  - now apply with_loops_parallel.
  - apply with_loops_all.
  - now apply with_loops_zero.
  - cbn [with_loops ge]. rewrite !app_length, map_length, seq_length, repeat_length. lia.
  - exact Hpr.
  - exact Hq.
  - exact Hr.
  - exists m. rewrite model_pctsp_simple by auto. split; [exact E|]. split; [exact Eg|].
    rewrite Eg. intros s entries Hb He. destruct (H s entries Hb He) as [H1 H2]. split.
    + rewrite H1. split; intros (t & Ht & Hi); exists t; (split; [|exact Hi]);
        now apply with_loops_tour.
    + intros t z Ht Hi Hw. apply (H2 t z); auto.
      * now apply with_loops_tour.
      * now apply with_loops_cost.
Qed.
Print Assumptions C11_exact_without_loops.

Example C11_case : graph_ok ilp_g /\ no_parallel ilp_g /\ loop_free ilp_g /\
  prizes_within ilp_g ilp_p (- int_max) int_max /\
  (exists m, model_pctsp ilp_g [] ilp_c ilp_p 15 0 = Ok m /\ i_graph m = ilp_gl /\
     Forall (row_sat ilp_s) (i_cons m) /\ lin_value (s_num ilp_s) (i_obj m) = 12%Z /\
     ~ Forall (row_sat ilp_eight) (i_cons m)) /\
  tour_from ilp_g 0 [0;1;2;0] /\ incidence ilp_gl [0;1;2;0] ilp_s /\
  meets_quota ilp_p 15 [0;1;2;0] /\ walk_cost ilp_g ilp_c [0;1;2;0] 12 /\
  is_sol_simple_cycle ilp_gl ilp_s (map (fun e => (e, e)) (seq 0 12)) = Ok true.
Proof.
  checkI.
  - eexists. checkI.
  - apply (incidenceb_spec ilp_gl [0;1;2;0] [0;1;2]). vm_compute. reflexivity.
  - exists 15%Z. checkI.
Qed.

(** Parallel edges break the formulation: the degree rows name the first of them twice and
    the second never, so a cycle through the first is cut off. *)
Theorem C11_parallel_edges_refuted : exists g c p m t s,
  graph_ok g /\ loop_free g /\ length c = length (ge g) /\
  prizes_within g p (- int_max) int_max /\
  model_pctsp g [] c p 0 0 = Ok m /\ tour_from g 0 t /\ incidence (i_graph m) t s /\
  meets_quota p 0 t /\ ~ Forall (row_sat s) (i_cons m).
Proof.
  exists (mkGraph 3 [(0,1);(1,2);(2,0);(1,0)]), [1;1;1;1]%Z, [1;1;1]%Z.
  eexists. exists [0;1;2;0], (heuristic_sol [0;1;2;4;5;6]). checkI.
  - eapply (incidenceb_spec _ [0;1;2;0] [0;1;2]). vm_compute. reflexivity.
  - exists 3%Z. checkI.
Qed.
Print Assumptions C11_parallel_edges_refuted.

(** The prize row for any weights of the edges (an edge without weight counts 0): at least the
    quota of weight must be chosen. *)
Theorem C11_prize_row : forall g (w : list (option Z)) quota,
  let wt o := match o with Some z => z | None => 0%Z end in
  length w = length (ge g) -> Forall (fun o => - int_max <= wt o <= int_max)%Z w ->
  (- int_max <= quota <= int_max)%Z ->
  exists row, prize_constraint g w quota = Ok row /\
    forall s, row_sat s row <->
      (quota * s_den s <= lin_value (s_num s) (combine (seq 0 (length (ge g))) (map wt w)))%Z.
Proof. exact prize_row_exact. Qed.
Print Assumptions C11_prize_row.
Example C11_prize_row_case :
  prize_constraint (mkGraph 2 [(0,1);(0,0);(1,1)]) [None; Some 4%Z; Some 5%Z] 7 =
    Ok (mkLin [(0, 0%Z); (1, (-4)%Z); (2, (-5)%Z)] None (Some (-7)%Z)).
Proof. reflexivity. Qed.

(** Without a self loop at the root the constraints cannot be built: an exception. *)
Theorem C11_no_root_loop : forall g c (w : list (option Z)) quota root,
  let wt o := match o with Some z => z | None => 0%Z end in
  length c = length (ge g) -> length w = length (ge g) ->
  Forall (fun o => - int_max <= wt o <= int_max)%Z w -> (- int_max <= quota <= int_max)%Z ->
  root < gn g -> ~ is_edge g root root ->
  model_without_secs g c w quota root = Throw EdgeNotFoundException.
Proof. exact no_root_loop. Qed.
Print Assumptions C11_no_root_loop.
Example C11_no_root_loop_case :
  model_without_secs (mkGraph 2 [(0,1);(1,1)]) [3;0]%Z [None; Some 5%Z] 7 0 = Throw EdgeNotFoundException.
Proof. reflexivity. Qed.

(** ** C19 *)
Theorem C19_has_self_loops_exact : forall g,
  exists b, has_self_loops_on_all_vertices g = Ok b /\
    (b = true <-> forall v, v < gn g -> is_edge g v v).
Proof. exact has_self_loops_spec. Qed.
Print Assumptions C19_has_self_loops_exact.

Theorem C19_preprocessing : forall g c,
  graph_ok g -> no_parallel g -> loop_free g -> length c = length (ge g) ->
  exists g' c', add_self_loops_to_graph g c = (g', c') /\
    assign_zero_cost_to_self_loops g' c' = Ok c' /\
    gn g' = gn g /\ graph_ok g' /\ no_parallel g' /\
    has_self_loops_on_all_vertices g' = Ok true /\
    (forall v, v < gn g -> exists e, joins g' e v v /\ nth_error c' e = Some 0%Z /\
       forall f, joins g' f v v -> f = e) /\
    (forall e u v, u <> v -> (joins g' e u v <-> joins g e u v)) /\
    (forall e, e < length (ge g) ->
       nth_error (ge g') e = nth_error (ge g) e /\ nth_error c' e = nth_error c e) /\
    length (ge g') = length (ge g) + gn g /\ length c' = length (ge g').
Proof.
  intros g c Hg Hp Hf Hc. exists (with_loops g), (c ++ repeat 0%Z (gn g)).
  split; [apply add_self_loops_ok|].
  split; [apply assign_zero_id; now apply with_loops_zero|]. split; [reflexivity|].
  split; [now apply with_loops_ok|]. split; [now apply with_loops_parallel|].
  assert (Hlen : length (ge (with_loops g)) = length (ge g) + gn g).
  { cbn [with_loops ge]. now rewrite app_length, map_length, seq_length. }
  split.
  { destruct (has_self_loops_spec (with_loops g)) as (b & E & Hb). rewrite E. f_equal.
    apply Hb, with_loops_all. }
  split.
  { intros v Hv. exists (length (ge g) + v).
    assert (Hj : joins (with_loops g) (length (ge g) + v) v v) by (apply with_loops_joins; auto).
    split; auto. split; [apply (with_loops_zero g c Hf Hc _ v Hj)|].
    intros f Hjf. eapply with_loops_parallel; eauto. }
  split.
  { intros e u v Hne. rewrite with_loops_joins. split; auto. intros [H|[H _]]; auto. contradiction. }
  split.
  { intros e He. cbn [with_loops ge]. rewrite !nth_error_app1 by lia. auto. }
  split; [exact Hlen|]. rewrite Hlen, app_length, repeat_length. lia.
Qed.
Print Assumptions C19_preprocessing.

Example C19_case : graph_ok ilp_g /\ no_parallel ilp_g /\ loop_free ilp_g /\
  add_self_loops_to_graph ilp_g ilp_c = (ilp_gl, ilp_cl) /\
  has_self_loops_on_all_vertices ilp_g = Ok false /\
  has_self_loops_on_all_vertices ilp_gl = Ok true /\
  assign_zero_cost_to_self_loops ilp_gl [3;4;5;6;1;9;2;8;8;8;8;8]%Z = Ok ilp_cl.
Proof. checkI. Qed.

(** A graph with a self loop on some but not all vertices gets a second loop there; the
    degree constraint of that vertex then has entries that were never written. *)
Theorem C19_partial_loops_refuted : exists g c p,
  graph_ok g /\ no_parallel g /\ length c = length (ge g) /\
  prizes_within g p (- int_max) int_max /\
  ~ no_parallel (fst (add_self_loops_to_graph g c)) /\
  model_pctsp g [] c p 0 0 = UB Uninit.
Proof.
  exists (mkGraph 3 [(0,1);(1,2);(2,0);(0,0)]), [1;1;1;0]%Z, [1;1;1]%Z. checkI.
  intros H. assert (3 = 4); [|discriminate]. apply (H 3 4 0 0); left; reflexivity.
Qed.
Print Assumptions C19_partial_loops_refuted.

(** ** C20 *)
Theorem C20_heuristic_solution_feasible : forall g c p quota root t es es',
  graph_ok g -> no_parallel g -> loop_free g ->
  length c = length (ge g) -> prizes_within g p (- int_max) int_max ->
  (- int_max <= quota <= int_max)%Z -> root < gn g ->
  tour_from g root t -> trail g t es' -> Permutation es es' ->
  exists m h, model_pctsp g es c p quota root = Ok m /\ i_heur m = Some h /\
    incidence (i_graph m) t h /\
    (meets_quota p quota t <-> Forall (row_sat h) (i_cons m)) /\
    (forall z, walk_cost g c t z -> lin_value (s_num h) (i_obj m) = (z * s_den h)%Z).
Proof.
  intros g c p quota root t es es' Hg Hp Hf Hc Hpr Hq Hr Ht Htr HP.
  rewrite model_pctsp_simple by auto.
  assert (Ht' : tour_from (with_loops g) root t) by now apply with_loops_tour.
  assert (Htr' : trail (with_loops g) t es') by now apply trail_with_loops.
  assert (Hlen : length (c ++ repeat 0%Z (gn g)) = length (ge (with_loops g))).
  { cbn [with_loops ge]. rewrite !app_length, map_length, seq_length, repeat_length. lia. }
  assert (Hok := with_loops_ok g Hg). assert (Hpar := with_loops_parallel g Hp Hf).
  assert (Hall := with_loops_all g).
  destruct (model_pctsp_loops (with_loops g) es (c ++ repeat 0%Z (gn g)) p quota root)
    as (rows & h & E & Hrows & _ & Hh); auto.
  { right. exists t, es'. auto. }
  destruct (Hh t es' Ht' Htr' HP) as (s & -> & Hi).
  eexists. exists s. split; [exact E|]. split; [reflexivity|]. cbn [i_graph i_cons i_obj].
  split; [exact Hi|]. split.
  - symmetry. apply (incidence_rows (with_loops g) p quota root rows t s); auto. apply (proj1 Hpr).
  - intros z Hw. apply (incidence_objective (with_loops g) Hpar s _ root t z); auto.
    + now apply with_loops_zero.
    + now apply with_loops_cost.
Qed.
Print Assumptions C20_heuristic_solution_feasible.

Example C20_case : tour_from ilp_g 0 [0;1;2;0] /\ trail ilp_g [0;1;2;0] [0;1;2] /\
  Permutation [2;0;1] [0;1;2] /\
  exists m h, model_pctsp ilp_g [2;0;1] ilp_c ilp_p 15 0 = Ok m /\ i_heur m = Some h /\
    Forall (row_sat h) (i_cons m) /\
    map (s_num h) (seq 0 12) = [1;1;1;0;0;0;0;1;1;1;0;0]%Z.
Proof.
  checkI.
  - apply (perm_trans (l' := [0;2;1])); [apply perm_swap|]. apply perm_skip, perm_swap.
  - eexists. eexists. checkI.
Qed.

(** addHeuristicTourToSolver (used nowhere) sets the self loops but no edge of the tour. *)
Theorem C20_tour_edges_lost_refuted : exists g t h m,
  graph_ok g /\ no_parallel g /\ all_loops g /\ tour_from g 0 t /\
  add_heuristic_tour g (var_map g) t = Ok h /\ ~ incidence g t h /\
  model_pctsp g [] ilp_cl ilp_p 15 0 = Ok m /\ ~ Forall (row_sat h) (i_cons m).
Proof.
  exists ilp_gl, [0;1;2;0]. eexists. eexists. checkI.
  intros [_ (es & Htr & H)]. inversion Htr; subst.
  match goal with Hj : joins _ ?e 0 1 |- _ =>
    assert (e = 0); [|subst; destruct (H 0) as [_ H0]; [simpl; lia|];
      specialize (H0 (or_introl (or_introl eq_refl))); discriminate] end.
  assert (Hn : no_parallel ilp_gl) by check2.
  eapply Hn; [eassumption|]. left. reflexivity.
Qed.
Print Assumptions C20_tour_edges_lost_refuted.

(** ** C35 *)
Theorem C35_prize_on_self_loops : forall g p,
  graph_ok g -> no_parallel g -> length p = gn g ->
  exists w, put_prize_onto_edge_weights g p = Ok (map Some w) /\ length w = length (ge g) /\
    (forall e v, joins g e v v -> nth_error w e = nth_error p v) /\
    (forall e u v, joins g e u v -> u <> v -> nth_error w e = Some 0%Z).
Proof. exact put_prize_spec. Qed.
Print Assumptions C35_prize_on_self_loops.

Theorem C35_cycle_weight_is_prize : forall g p r t es ls z,
  graph_ok g -> no_parallel g -> length p = gn g -> tour_from g r t -> trail g t es ->
  Forall2 (fun v l => joins g l v v) (removelast t) ls -> tour_prize p t z ->
  exists w, put_prize_onto_edge_weights g p = Ok (map Some w) /\ prize_sum w (es ++ ls) z.
Proof. exact cycle_weight. Qed.
Print Assumptions C35_cycle_weight_is_prize.

Example C35_case : graph_ok ilp_gl /\ no_parallel ilp_gl /\ tour_from ilp_gl 0 [0;1;2;0] /\
  trail ilp_gl [0;1;2;0] [0;1;2] /\ tour_prize ilp_p [0;1;2;0] 15 /\
  put_prize_onto_edge_weights ilp_gl ilp_p = Ok (map Some [0;0;0;0;0;0;0;0;7;8;2;1]%Z) /\
  prize_sum [0;0;0;0;0;0;0;0;7;8;2;1]%Z ([0;1;2] ++ [7;8;9]) 15.
Proof. checkI. Qed.
