(** * Properties_CostCover: C15, C34 *)
From Verif Require Import Base Graph Spec Spec_Cycle M_Walk M_Graph M_Solution M_Dijkstra M_ILP M_CostCover
  Spec_ILP Spec_Cover.
From Verif Require Import P_Base P_Walk P_Check P_Dijkstra P_ILP P_CheckILP P_Model P_Cuts P_CostCover.
Open Scope nat_scope.

(** A triangle 0-1-2 with the vertex 3 hanging far out on 2 and 1; a self loop everywhere.
    (Not a model of anything in /repo.) *)
Definition cov_g : graph := mkGraph 4 [(0,1);(1,2);(2,0);(2,3);(3,1);(0,0);(1,1);(2,2);(3,3)].
Definition cov_c : list Z := [1;2;3;10;20;0;0;0;0]%Z.
Definition cov_near : sol := heuristic_sol [0;1;2;5;6;7].
Definition cov_far : sol := heuristic_sol [0;4;3;2;5;6;7;8].

(** ** C15 *)

(** The distances handed to the event handler are twice the shortest distances. *)
Theorem C15_distances_exact : forall tb g c cm root C,
  good_pick tb -> graph_ok g -> costs_within g c 0 C -> (0 <= C)%Z ->
  (2 * (Z.of_nat (gn g) * C) < int_max)%Z -> root < gn g ->
  (forall v, v < gn g -> exists w, is_walk g w /\ leads root v w) ->
  exists dist, shortest_path_distances tb g c cm root = Ok dist /\ length dist = gn g /\
    forall v, v < gn g -> exists d, nth_error dist v = Some (2 * d)%Z /\ distance g c root v d.
Proof. exact doubled_ok. Qed.
Print Assumptions C15_distances_exact.

(** Rows added at a new incumbent of value [n/d] (a rational), by an event handler that holds
    those distances: no tour from the root of cost at most [n/d] is cut off, and the rows
    forbid exactly the vertices whose doubled distance exceeds the bound. *)
Theorem C15_shortest_path_covers_valid : forall tb g c cm root C n d ub h,
  good_pick tb -> graph_ok g -> all_loops g -> costs_within g c 0 C -> (0 <= C)%Z ->
  (2 * (Z.of_nat (gn g) * C) < int_max)%Z -> root < gn g ->
  (forall v, v < gn g -> exists w, is_walk g w /\ leads root v w) ->
  shortest_path_distances tb g c cm root = Ok (ch_dist h) ->
  (0 < d)%Z -> cast_int n d = Ok ub ->
  exists h' rows, cover_exec g (var_map g) root h (n, d) = Ok h' /\
    ch_rows h' = ch_rows h ++ rows /\
    (forall t z s, tour_from g root t -> any_cost g c t z -> (z * d <= n)%Z ->
       incidence g t s -> Forall (row_sat s) rows) /\
    (forall t s, tour_from g root t -> incidence g t s ->
       (Forall (row_sat s) rows <->
        forall v dv, In v t -> distance g c root v dv -> (2 * dv <= ub)%Z)).
Proof.
  intros tb g c cm root C n d ub h Htb Hg Hl Hc HC Hmax Hr Hcon Hdist Hd Hub.
  destruct (doubled_ok tb g c cm root C Htb Hg Hc HC Hmax Hr Hcon) as (dist & E & Hlen & Hx).
  assert (dist = ch_dist h) by congruence. subst dist.
  destruct (cover_exec_ok g root h (n, d) ub Hl Hr Hlen Hub) as (rows & Hrows & Eh).
  eexists. exists rows. split; [exact Eh|]. split; [reflexivity|]. split.
  - intros t z s Ht Hz Hle Hi. apply (covers_valid g c root (ch_dist h) ub rows t z s); auto.
    + now apply doubled_bounds.
    + eapply cast_above; eauto.
  - intros t s Ht Hi.
    assert (Hin : In root t) by (destruct Ht as (vs & -> & _); now left).
    rewrite (rows_for_sat g root _ rows t s Hrows Hin Hi). split.
    + intros H v dv Hv Hdv. destruct (Z.le_gt_cases (2 * dv) ub) as [|Hgt]; auto. exfalso.
      assert (Hvn : v < gn g).
      { destruct Ht as (vs & -> & _ & _ & _ & HF). rewrite Forall_forall in HF. auto. }
      apply (H v); auto. apply filter_In. split; [apply in_seq; lia|]. apply over_spec.
      destruct (Hx v Hvn) as (d' & Ed & [(w & Hw & Hcw) Hmin]). destruct Hdv as [(w' & Hw' & Hcw') Hmin'].
      exists (2 * d')%Z. split; auto. specialize (Hmin w' dv Hw' Hcw'). specialize (Hmin' w d' Hw Hcw). lia.
    + intros H v Hv Hvt. apply filter_In in Hv as [Hv Ho]. apply in_seq in Hv.
      apply over_spec in Ho as (x & Ex & Hgt). destruct (Hx v) as (d' & Ed & Hdd); [lia|].
      specialize (H v d' Hvt Hdd). assert (x = (2 * d')%Z) by congruence. lia.
Qed.
Print Assumptions C15_shortest_path_covers_valid.

(** The same for rows added for the heuristic solution, and for distances supplied by the
    caller (disjoint paths): they only have to bound the tours from below. *)
Theorem C15_given_bounds_valid : forall g c root heur dist ub,
  all_loops g -> root < gn g -> length dist = gn g -> tour_bounds g c root dist ->
  total_cost_edges c heur = Ok ub ->
  exists h, init_cost_cover g c (var_map g) root heur dist = Ok h /\
    forall t z s, tour_from g root t -> any_cost g c t z -> (z <= ub)%Z ->
      incidence g t s -> Forall (row_sat s) (ch_rows h).
Proof.
  intros g c root heur dist ub Hl Hr Hlen Hb Hub.
  destruct (init_cover_ok g c root heur dist ub Hl Hr Hlen Hub) as (h & rows & E & _ & <- & _ & _ & Hpos & Hneg).
  exists h. split; auto. intros t z s Ht Hz Hle Hi.
  destruct (Z.lt_ge_cases 0 ub) as [H|H].
  - apply (covers_valid g c root dist ub (ch_rows h) t z s); auto.
  - rewrite (Hneg H). constructor.
Qed.
Print Assumptions C15_given_bounds_valid.

(** The row is not vacuous: it cuts off every tour through the far vertex. *)
Theorem C15_rows_bind : forall g root v, all_loops g -> root < gn g -> v < gn g ->
  exists row, cover_inequality_from_vertices g (var_map g) [root; v] = Ok row /\
    forall t s, tour_from g root t -> incidence g t s -> (row_sat s row <-> ~ In v t).
Proof.
  intros g root v Hl Hr Hv. destruct (cover_from_ok g root v Hl Hr Hv) as (rl & vl & E & J1 & J2).
  eexists. split; [exact E|]. intros t s Ht Hi. apply (cover_row_sat g root v rl vl t s); auto.
  destruct Ht as (vs & -> & _). now left.
Qed.
Print Assumptions C15_rows_bind.

Example C15_case : good_pick pick_first /\ graph_ok cov_g /\ all_loops cov_g /\
  costs_within cov_g cov_c 0 20 /\
  (forall v, v < gn cov_g -> exists w, is_walk cov_g w /\ leads 0 v w) /\
  shortest_path_distances pick_first cov_g cov_c [] 0 = Ok [0;2;6;26]%Z /\
  tour_from cov_g 0 [0;1;2;0] /\ any_cost cov_g cov_c [0;1;2;0] 6 /\
  tour_from cov_g 0 [0;1;3;2;0] /\
  incidence cov_g [0;1;2;0] cov_near /\ incidence cov_g [0;1;3;2;0] cov_far /\
  (exists row, cover_exec cov_g (var_map cov_g) 0 (new_cover_hdlr [0;2;6;26]%Z) (51, 2)%Z
     = Ok (mkCover [0;2;6;26]%Z 1 0 [row]) /\ row_sat cov_near row /\ ~ row_sat cov_far row).
Proof.
  split; [apply pick_first_good|]. checkI.
  - intros v Hv. exists (nth v [[0];[0;1];[0;2];[0;2;3]] []). cbn in Hv.
    destruct v as [|[|[|[|v]]]]; [..|lia]; (split; [cbn; checkI|split; reflexivity]).
  - eapply (ac_cons _ _ 0 1 _ 0 1 5); [left; reflexivity|reflexivity|].
    eapply (ac_cons _ _ 1 2 _ 1 2 3); [left; reflexivity|reflexivity|].
    eapply (ac_cons _ _ 2 0 _ 2 3 0); [left; reflexivity|reflexivity|]. constructor.
  - apply (incidenceb_spec cov_g [0;1;2;0] [0;1;2]). vm_compute. reflexivity.
  - apply (incidenceb_spec cov_g [0;1;3;2;0] [0;4;3;2]). vm_compute. reflexivity.
  - eexists. checkI.
Qed.

(** A vertex that cannot be reached makes the doubling overflow. *)
Theorem C15_unreachable_vertex_refuted : exists g c root,
  graph_ok g /\ all_loops g /\ costs_within g c 0 1 /\ root < gn g /\
  tour_from g root [0;1;2;0] /\
  shortest_path_distances pick_first g c c root = UB IntOverflow.
Proof.
  exists (mkGraph 4 [(0,1);(1,2);(2,0);(0,0);(1,1);(2,2);(3,3)]), [1;1;1;0;0;0;0]%Z, 0. checkI.
Qed.
Print Assumptions C15_unreachable_vertex_refuted.

(** Distances for fewer vertices than the graph has (for instance none, the default). *)
Theorem C15_short_distances_refuted : forall g dist ub, length dist < gn g ->
  separate_cost_cover_paths g dist ub = UB VecOOB.
Proof. exact separate_paths_short. Qed.
Print Assumptions C15_short_distances_refuted.

(** The cost map argument is ignored: with a cost map other than the weights of the graph a
    tour cheaper than the bound is cut off. *)
Theorem C15_cost_map_ignored_refuted : exists g w c root dist row h t z s ub,
  graph_ok g /\ all_loops g /\ costs_within g w 0 20 /\ costs_within g c 0 20 /\
  shortest_path_distances pick_first g w c root = Ok dist /\
  cover_exec g (var_map g) root (new_cover_hdlr dist) (ub, 1%Z) = Ok h /\ In row (ch_rows h) /\
  tour_from g root t /\ walk_cost g c t z /\ (z <= ub)%Z /\ incidence g t s /\ ~ row_sat s row.
Proof.
  exists cov_g, cov_c, [1;1;1;1;1;0;0;0;0]%Z, 0, [0;2;6;26]%Z, (cover_row 5 8).
  eexists. exists [0;1;3;2;0], 4%Z, cov_far, 10%Z. checkI.
  - apply (incidenceb_spec cov_g [0;1;3;2;0] [0;4;3;2]). vm_compute. reflexivity.
Qed.
Print Assumptions C15_cost_map_ignored_refuted.

(** ** C34 *)

(** Whatever incumbents are found: the counter reported is the number of inequalities added
    (as an unsigned int), first for the heuristic and then at every event. *)
Theorem C34_counter_exact : forall g c root heur dist ub nds ubs,
  all_loops g -> root < gn g -> length dist = gn g -> total_cost_edges c heur = Ok ub ->
  Forall2 (fun nd u => cast_int (fst nd) (snd nd) = Ok u) nds ubs ->
  exists h0 h, init_cost_cover g c (var_map g) root heur dist = Ok h0 /\
    foldM (cover_exec g (var_map g) root) nds h0 = Ok h /\
    num_conss_added h0 = (Z.of_nat (length (ch_rows h0)) mod 2 ^ 32)%Z /\
    ch_init h = num_conss_added h0 /\
    num_conss_added h = (Z.of_nat (length (ch_rows h)) mod 2 ^ 32)%Z.
Proof.
  intros g c root heur dist ub nds ubs Hl Hr Hd Hub HF.
  destruct (init_cover_ok g c root heur dist ub Hl Hr Hd Hub) as (h0 & rows & E & Hd0 & <- & Hn & Hi & _ & _).
  destruct (cover_run_ok g root dist Hl Hr Hd nds ubs HF h0 Hd0 Hn) as (h & rowss & E' & _ & _ & _ & Hi' & Hn').
  exists h0, h. split; auto. split; auto. split; [exact Hn|]. split; [congruence|exact Hn'].
Qed.
Print Assumptions C34_counter_exact.

(** The forbidden vertices: exactly those over the bound, so a smaller bound forbids more. *)
Theorem C34_separation_monotone : forall g dist ub ub', length dist = gn g -> (ub' <= ub)%Z ->
  exists vs vs', separate_cost_cover_paths g dist ub = Ok vs /\
    separate_cost_cover_paths g dist ub' = Ok vs' /\ NoDup vs /\ NoDup vs' /\
    (forall v, In v vs <-> v < gn g /\ exists d, nth_error dist v = Some d /\ (ub < d)%Z) /\
    (forall v, In v vs -> In v vs').
Proof.
  intros g dist ub ub' Hl Hle. do 2 eexists. split; [now apply separate_paths_ok|].
  split; [now apply separate_paths_ok|]. split; [apply NoDup_filter, seq_NoDup|].
  split; [apply NoDup_filter, seq_NoDup|]. split.
  - intros v. rewrite filter_In, over_spec, in_seq. cbn. tauto || (split; intros [H1 H2]; split; auto; lia).
  - intros v. now apply filter_over_mono.
Qed.
Print Assumptions C34_separation_monotone.

(** Along any sequence of events: once a vertex is forbidden its inequality stays, and a
    further event with a bound that is not larger adds it again. *)
Theorem C34_stays_forbidden : forall g root dist nds ubs h ub v d,
  all_loops g -> root < gn g -> length dist = gn g ->
  ch_dist h = dist -> num_conss_added h = umod (Z.of_nat (length (ch_rows h))) ->
  Forall2 (fun nd u => cast_int (fst nd) (snd nd) = Ok u) nds ubs -> In ub ubs ->
  v < gn g -> nth_error dist v = Some d -> (ub < d)%Z ->
  exists h', foldM (cover_exec g (var_map g) root) nds h = Ok h' /\
    (forall row, In row (ch_rows h) -> In row (ch_rows h')) /\
    forall t s, tour_from g root t -> incidence g t s -> Forall (row_sat s) (ch_rows h') -> ~ In v t.
Proof.
  intros g root dist nds ubs h ub v d Hl Hr Hlen Hd Hn HF Hin Hv Ed Hlt.
  destruct (cover_run_ok g root dist Hl Hr Hlen nds ubs HF h Hd Hn) as (h' & rowss & E & HR & Hrows & _).
  exists h'. split; auto. split; [intros row H; rewrite Hrows; apply in_app_iff; auto|].
  intros t s Ht Hi Hs.
  destruct (Forall2_In_l _ _ _ _ HR Hin) as (rows & Hr1 & Hr2).
  assert (Hroot : In root t) by (destruct Ht as (vs & -> & _); now left).
  refine (proj1 (rows_for_sat g root _ rows t s Hr2 Hroot Hi) _ v _).
  - rewrite Hrows in Hs. apply Forall_app in Hs as [_ Hs]. rewrite Forall_forall in *.
    intros row Hrow. apply Hs. apply in_concat. eauto.
  - apply filter_In. split; [apply in_seq; lia|]. apply over_spec. eauto.
Qed.
Print Assumptions C34_stays_forbidden.

(** A heuristic of cost 34 (no vertex), then three events with decreasing bounds (one, one and
    two vertices). *)
Example C34_case : length [0;2;6;26]%Z = gn cov_g /\ total_cost_edges cov_c [0;4;3;2] = Ok 34%Z /\
  Forall2 (fun nd u => cast_int (fst nd) (snd nd) = Ok u) [(51,2);(6,1);(5,1)]%Z [25;6;5]%Z /\
  (exists h, (do h0 <- init_cost_cover cov_g cov_c (var_map cov_g) 0 [0;4;3;2] [0;2;6;26]%Z;
              foldM (cover_exec cov_g (var_map cov_g) 0) [(51,2);(6,1);(5,1)]%Z h0) = Ok h /\
     num_conss_added h = 4%Z /\ length (ch_rows h) = 4).
Proof.
  split; [reflexivity|]. split; [reflexivity|]. split; [repeat constructor|].
  eexists. split; [vm_compute; reflexivity|]. split; reflexivity.
Qed.

(** The counter is not the number of different inequalities: each event adds the earlier ones
    again. *)
Theorem C34_distinct_refuted : exists g root dist nds h,
  all_loops g /\ root < gn g /\ length dist = gn g /\
  foldM (cover_exec g (var_map g) root) nds (new_cover_hdlr dist) = Ok h /\
  num_conss_added h = 2%Z /\ exists row, ch_rows h = [row; row].
Proof.
  exists cov_g, 0, [0;2;6;26]%Z, [(25,1);(20,1)]%Z. eexists. checkI. eexists. reflexivity.
Qed.
Print Assumptions C34_distinct_refuted.
