(** * Properties_Cuts: C12, C13, C14, C18, C21, C23, C32, C33, C36, C45 *)
From Coq Require Import Permutation Sorting.Sorted.
From Verif Require Import Base Graph Spec Spec_Cycle M_Walk M_Graph M_Solution M_ILP M_Subtour M_CycleCover Spec_ILP.
From Verif Require Import P_Base P_Walk P_Check P_Cycle P_ILP P_CheckILP P_Model P_Lookup P_Cuts
  P_Component P_Separate P_Solution P_Cover.
Open Scope nat_scope.

(** Six vertices, two disjoint triangles joined by two edges, a self loop everywhere.
    (Not a model of anything in /repo.) *)
Definition cut_g : graph := mkGraph 6
  [(0,1);(1,2);(2,0);(3,4);(4,5);(5,3);(2,3);(0,4);(0,0);(1,1);(2,2);(3,3);(4,4);(5,5)].
Definition cut_p : list Z := [1;2;3;4;5;6]%Z.
(** The two triangles; the tour 0-1-2-3-4-0. *)
Definition cut_two : sol := heuristic_sol [0;1;2;3;4;5;8;9;10;11;12;13].
Definition cut_tour : sol := heuristic_sol [0;1;6;3;7;8;9;10;11;12].
(** Every row is accepted by SCIP / exactly the rows violated at [s] are. *)
Definition all_rows : scip_lib := mkLib (fun _ => true) (fun _ => false).
Definition violated_rows (s : sol) : scip_lib := mkLib (fun r => negb (rowb s r)) (fun _ => false).
Definition no_rows : sepa := mkSepa [] DidNotFind.

(** ** C12 *)
Theorem C12_subtour_rows_valid : forall lib g S root target st,
  Forall (fun v => v < gn g) S -> NoDup S -> all_loops g -> target < gn g ->
  (In root S <-> ~ In target S) ->
  exists row st', add_sec lib g (var_map g) S root target st = Ok st' /\
    st' = (if efficacious lib row
           then mkSepa (sp_rows st ++ [row])
                       (if row_infeasible lib row then Cutoff else Separated)
           else st) /\
    forall t s, tour_from g root t -> incidence g t s -> row_sat s row.
Proof. exact add_sec_ok. Qed.
Print Assumptions C12_subtour_rows_valid.

Theorem C12_wrong_sets_rejected : forall lib g m S root target st,
  (~ In root S -> ~ In target S ->
     add_sec lib g m S root target st = Throw VertexNotFoundException) /\
  (In root S -> In target S ->
     add_sec lib g m S root target st = Throw VertexInWrongSetException).
Proof. exact add_sec_throws. Qed.
Print Assumptions C12_wrong_sets_rejected.

(** Both forms; the row cuts off the two triangles and keeps the tour. *)
Example C12_case : all_loops cut_g /\ tour_from cut_g 0 [0;1;2;3;4;0] /\
  incidence cut_g [0;1;2;3;4;0] cut_tour /\
  (exists row, add_sec all_rows cut_g (var_map cut_g) [3;4;5] 0 4 no_rows
     = Ok (mkSepa [row] Separated) /\ row_sat cut_tour row /\ ~ row_sat cut_two row) /\
  (exists row, add_sec all_rows cut_g (var_map cut_g) [0;1;2] 0 4 no_rows
     = Ok (mkSepa [row] Separated) /\ row_sat cut_tour row /\ ~ row_sat cut_two row).
Proof.
  checkI.
  - apply (incidenceb_spec cut_g [0;1;2;3;4;0] [0;1;6;3;7]). vm_compute. reflexivity.
  - eexists. checkI.
  - eexists. checkI.
Qed.

(** ** C13 *)
Theorem C13_disjoint_tours_separated : forall lib g s root ds rl st,
  graph_ok g -> no_parallel g -> all_loops g -> (Z.of_nat (gn g) <= int_max)%Z ->
  root < gn g -> binary g s ->
  degree_constraints g = Ok ds -> Forall (row_sat s) ds ->
  joins g rl root root -> row_sat s (root_constraint rl) ->
  exists st' n added, separate_subtour_disjoint lib g s (var_map g) root st = Ok (st', n) /\
    sp_rows st' = sp_rows st ++ added /\
    (forall row, In row added ->
       forall t s', tour_from g root t -> incidence g t s' -> row_sat s' row) /\
    (added <> [] -> sp_result st' = Separated \/ sp_result st' = Cutoff) /\
    ((exists t, tour_from g root t /\ incidence g t s) -> st' = st /\ n = 0) /\
    (~ (exists t, tour_from g root t /\ incidence g t s) ->
     (forall row, ~ row_sat s row -> efficacious lib row = true) ->
     0 < n /\ exists row, In row added /\ ~ row_sat s row).
Proof.
  intros lib g s root ds rl st Hg Hp Hl Hmax Hr Hb Hds Hsat Hrl Hroot.
  destruct (disjoint_tour_ok g Hg Hp Hl Hmax s Hb root Hr
    (degree_rows_values g s ds Hp Hl Hb Hds Hsat) (root_rows_value g s root rl Hp Hrl Hroot) lib st)
    as (st' & n & added & E & (X1 & X2 & X3) & Hyes & Hno).
  exists st', n, added. split; auto. split; auto. split; [|split; [|split]].
  - intros row Hin. rewrite Forall_forall in X2. exact (X2 row Hin).
  - destruct X3 as [[-> _]|[_ H]]; tauto.
  - exact Hyes.
  - intros Hnt Heff. destruct (Hno Hnt Heff) as [HE Hn]. split; auto. now apply Exists_exists.
Qed.
Print Assumptions C13_disjoint_tours_separated.

Example C13_case : graph_ok cut_g /\ no_parallel cut_g /\ all_loops cut_g /\
  binary cut_g cut_two /\ binary cut_g cut_tour /\
  (exists ds, degree_constraints cut_g = Ok ds /\ Forall (row_sat cut_two) ds /\
     Forall (row_sat cut_tour) ds) /\
  joins cut_g 8 0 0 /\ row_sat cut_two (root_constraint 8) /\
  (exists a b c, separate_subtour_disjoint (violated_rows cut_two) cut_g cut_two (var_map cut_g) 0 no_rows
     = Ok (mkSepa [a; b; c] Separated, 3) /\
     ~ row_sat cut_two a /\ ~ row_sat cut_two b /\ ~ row_sat cut_two c /\ row_sat cut_tour a) /\
  separate_subtour_disjoint all_rows cut_g cut_tour (var_map cut_g) 0 no_rows = Ok (no_rows, 0).
Proof.
  checkI.
  - eexists. checkI.
  - left. reflexivity.
  - do 3 eexists. checkI.
Qed.

(** Rows SCIP does not find efficacious are counted as added all the same. *)
Theorem C13_count_of_added_rows_refuted : exists lib g s root,
  graph_ok g /\ no_parallel g /\ all_loops g /\ root < gn g /\ binary g s /\
  separate_subtour_disjoint lib g s (var_map g) root no_rows = Ok (no_rows, 3).
Proof. exists (mkLib (fun _ => false) (fun _ => false)), cut_g, cut_two, 0. checkI. Qed.
Print Assumptions C13_count_of_added_rows_refuted.

(** ** C14 *)
Theorem C14_cover_row_valid : forall lib g p S root quota z st,
  Forall (fun v => v < gn g) S -> NoDup S -> all_loops g ->
  Forall (fun x => 0 <= x)%Z p -> In root S -> prize_sum p S z -> (z < quota)%Z ->
  exists row st', add_cycle_cover lib g (var_map g) S st = Ok st' /\
    st' = (if efficacious lib row
           then mkSepa (sp_rows st ++ [row])
                       (if row_infeasible lib row then Cutoff else Separated)
           else st) /\
    forall t s, tour_from g root t -> meets_quota p quota t -> incidence g t s -> row_sat s row.
Proof.
  intros lib g p S root quota z st Hf Hn Hl Hp Hr Hz Hlt.
  assert (HlS : forall v, In v S -> is_edge g v v).
  { intros v Hv. apply Hl. rewrite Forall_forall in Hf. auto. }
  assert (HSne : S <> []) by (intros ->; destruct Hr).
  destruct (cycle_cover_terms lib g S st Hf Hn HSne HlS) as (es & ls & st' & He & Hls & E & Ha).
  eexists. exists st'. split; [exact E|]. split; [exact Ha|].
  intros t s Ht Hq Hi. apply (cover_valid g S root es ls t s); auto.
  apply (quota_outside g p quota S z root t); auto.
Qed.
Print Assumptions C14_cover_row_valid.

(** The separator: nothing happens when the component of the root meets the quota; otherwise
    the row is valid, and it cuts off any 0/1 point with the degree and root rows. *)
Theorem C14_separation : forall lib g p P quota root s st,
  graph_ok g -> all_loops g -> (Z.of_nat (gn g) <= int_max)%Z -> root < gn g ->
  prizes_within g p 0 P -> (Z.of_nat (gn g) * P <= int_max)%Z ->
  exists st' S z, separate_cycle_cover lib g (var_map g) p quota root s st = Ok st' /\
    (forall v, In v S <-> connected (filter_positive g s) root v) /\ NoDup S /\ prize_sum p S z /\
    ((quota <= z)%Z -> st' = st) /\
    ((z < quota)%Z -> exists row,
       st' = (if efficacious lib row
              then mkSepa (sp_rows st ++ [row])
                          (if row_infeasible lib row then Cutoff else Separated)
              else st) /\
       (forall t s', tour_from g root t -> meets_quota p quota t ->
          incidence g t s' -> row_sat s' row) /\
       (forall ds rl, no_parallel g -> binary g s -> degree_constraints g = Ok ds ->
          Forall (row_sat s) ds -> joins g rl root root -> row_sat s (root_constraint rl) ->
          ~ row_sat s row)).
Proof.
  intros lib g p P quota root s st Hg Hl Hmax Hr [Hpl Hpf] HP.
  destruct (separate_cover_ok lib g p P quota root s st Hg Hl Hmax Hr) as
    (st' & S & z & E & Hc & Hn & Hz & H1 & H2); auto.
  { split; auto. eapply Forall_impl; [|exact Hpf]. cbn. intros x Hx. lia. }
  exists st', S, z. split; auto. split; auto. split; auto. split; auto. split; auto.
  intros Hlt. destruct (H2 Hlt) as (row & Ha & Hv & Hcut). exists row. split; [exact Ha|]. split.
  - apply Hv. eapply Forall_impl; [|exact Hpf]. cbn. intros x Hx. lia.
  - intros ds rl Hp Hb Hds Hsat Hrl Hroot. apply Hcut; auto.
    + exact (degree_rows_values g s ds Hp Hl Hb Hds Hsat).
    + exact (root_rows_value g s root rl Hp Hrl Hroot).
Qed.
Print Assumptions C14_separation.

Theorem C14_check_exact : forall g p P quota root s,
  graph_ok g -> (Z.of_nat (gn g) <= int_max)%Z -> root < gn g ->
  prizes_within g p (- P) P -> (Z.of_nat (gn g) * P <= int_max)%Z ->
  exists S z, (forall v, In v S <-> connected (filter_positive g s) root v) /\ NoDup S /\
    prize_sum p S z /\
    cycle_cover_check g p quota root s =
      Ok (if (quota <=? z)%Z then Feasible else Infeasible).
Proof.
  intros g p P quota root s Hg Hmax Hr Hpw HP.
  destruct (cover_violated_ok g p P quota root s Hg Hmax Hr Hpw HP)
    as (S & b & z & ES & Hz & Hn & _ & _ & Hc & Eb & Hb).
  exists S, z. split; auto. split; auto. split; auto.
  unfold cycle_cover_check, is_cycle_cover_violated. rewrite ES. cbn [bind]. rewrite Eb. cbn [bind].
  destruct (Z.leb_spec quota z) as [H|H]; destruct b; auto.
  - apply Hb in H. discriminate.
  - assert (quota <= z)%Z by now apply Hb. lia.
Qed.
Print Assumptions C14_check_exact.

Example C14_case : graph_ok cut_g /\ all_loops cut_g /\ prizes_within cut_g cut_p 0 6 /\
  prize_sum cut_p [0;1;2] 6 /\ tour_from cut_g 0 [0;1;2;3;4;0] /\
  meets_quota cut_p 10 [0;1;2;3;4;0] /\
  (exists row, separate_cycle_cover all_rows cut_g (var_map cut_g) cut_p 10 0 cut_two no_rows
     = Ok (mkSepa [row] Separated) /\ row_sat cut_tour row /\ ~ row_sat cut_two row) /\
  separate_cycle_cover all_rows cut_g (var_map cut_g) cut_p 6 0 cut_two no_rows = Ok no_rows /\
  cycle_cover_check cut_g cut_p 10 0 cut_two = Ok Infeasible.
Proof.
  checkI.
  - exists 15%Z. checkI.
  - eexists. checkI.
Qed.

(** With a negative prize the row cuts off a tour that meets the quota. *)
Theorem C14_negative_prize_refuted : exists g p quota root s t s' row,
  graph_ok g /\ no_parallel g /\ all_loops g /\ length p = gn g /\
  tour_from g root t /\ meets_quota p quota t /\ incidence g t s' /\
  separate_cycle_cover all_rows g (var_map g) p quota root s no_rows
    = Ok (mkSepa [row] Separated) /\ ~ row_sat s' row.
Proof.
  exists (mkGraph 4 [(0,1);(1,2);(2,0);(2,3);(0,0);(1,1);(2,2);(3,3)]), [1;1;1;-5]%Z, 3%Z, 0,
    (heuristic_sol [0;1;2;3;4;5;6;7]), [0;1;2;0], (heuristic_sol [0;1;2;4;5;6]).
  eexists. checkI.
  - exists 3%Z. checkI.
  - eapply (incidenceb_spec _ [0;1;2;0] [0;1;2]). vm_compute. reflexivity.
Qed.
Print Assumptions C14_negative_prize_refuted.

(** addCycleCover on a set without the root cuts off a tour that avoids the set. *)
Theorem C14_root_outside_refuted : exists g p quota root S t s row,
  graph_ok g /\ no_parallel g /\ all_loops g /\ Forall (fun x => 0 <= x)%Z p /\
  (exists z, prize_sum p S z /\ (z < quota)%Z) /\
  tour_from g root t /\ meets_quota p quota t /\ incidence g t s /\
  add_cycle_cover all_rows g (var_map g) S no_rows = Ok (mkSepa [row] Separated) /\
  ~ row_sat s row.
Proof.
  exists cut_g, cut_p, 6%Z, 0, [3], [0;1;2;0], (heuristic_sol [0;1;2;8;9;10]). eexists. checkI.
  - repeat constructor; vm_compute; discriminate.
  - exists 4%Z. checkI.
  - exists 6%Z. checkI.
  - apply (incidenceb_spec cut_g [0;1;2;0] [0;1;2]). vm_compute. reflexivity.
Qed.
Print Assumptions C14_root_outside_refuted.

(** The handler counts a row when [result] already was SCIP_SEPARATED and none is added. *)
Theorem C14_counter_refuted : exists g p quota root s,
  graph_ok g /\ all_loops g /\
  cycle_cover_sepalp all_rows g (var_map g) p quota root s (mkSepa [] Separated, 0%Z)
    = Ok (mkSepa [] Separated, 1%Z).
Proof. exists cut_g, cut_p, 6%Z, 0, cut_two. checkI. Qed.
Print Assumptions C14_counter_refuted.

(** ** C18 *)
Theorem C18_component_vectors : forall g k ids,
  length ids = gn g -> Forall (fun c => c < k) ids ->
  exists cvs, get_connected_components_vectors g k ids = Ok cvs /\ length cvs = k /\
    forall c S, nth_error cvs c = Some S ->
      StronglySorted lt S /\ forall v, In v S <-> nth_error ids v = Some c.
Proof.
  intros g k ids Hlen Hk. destruct (component_vectors_ok g k ids Hlen Hk) as (cvs & E & Hl & Hc).
  exists cvs. split; auto. split; auto. intros c S HS.
  pose proof (nth_error_Some_lt _ _ _ HS) as Hlt. rewrite Hl in Hlt. rewrite (Hc c Hlt) in HS.
  inversion HS; subst S. split; [apply StronglySorted_filter_seq|].
  intros v. rewrite cls_In. split; [tauto|]. intros H. split; auto.
  apply nth_error_Some_lt in H. apply in_seq. lia.
Qed.
Print Assumptions C18_component_vectors.

(** With the labels of connected_components: the lists are the connected components. *)
Theorem C18_connected_components : forall g,
  graph_ok g -> (Z.of_nat (gn g) <= int_max)%Z ->
  exists ids k cvs, connected_components g = Ok (ids, k) /\
    get_connected_components_vectors g k ids = Ok cvs /\ length cvs = k /\
    (forall v, v < gn g -> exists c S, nth_error cvs c = Some S /\ In v S) /\
    (forall c S, nth_error cvs c = Some S -> S <> [] /\ StronglySorted lt S /\
       forall u, In u S -> u < gn g /\ forall v, In v S <-> connected g u v).
Proof.
  intros g Hg Hmax.
  destruct (connected_components_ok g Hg Hmax) as (ids & k & E & Hlen & Hk & Hconn & Hused).
  destruct (C18_component_vectors g k ids Hlen Hk) as (cvs & Ec & Hl & Hc).
  exists ids, k, cvs. split; auto. split; auto. split; auto. split.
  - intros v Hv. destruct (nth_error ids v) as [c|] eqn:Ev; [|apply nth_error_None in Ev; lia].
    assert (Hck : c < k) by (rewrite Forall_forall in Hk; apply Hk; eapply nth_error_In; eauto).
    destruct (nth_error cvs c) as [S|] eqn:ES; [|apply nth_error_None in ES; lia].
    exists c, S. split; auto. now apply (Hc c S ES).
  - intros c S HS. destruct (Hc c S HS) as [Hs Hin]. split; [|split; auto].
    + apply nth_error_Some_lt in HS. destruct (Hused c ltac:(lia)) as [a Ha].
      apply Hin in Ha. intros ->. destruct Ha.
    + intros u Hu. apply Hin in Hu. split; [apply nth_error_Some_lt in Hu; lia|].
      intros v. rewrite Hin. now apply Hconn.
Qed.
Print Assumptions C18_connected_components.

Example C18_case : get_connected_components_vectors (mkGraph 6 []) 3 [2;0;2;1;0;2] =
    Ok [[1;4];[3];[0;2;5]] /\
  connected_components (mkGraph 6 [(0,2);(4,1);(5,2)]) = Ok ([0;1;0;2;1;0], 3).
Proof. checkI. Qed.

(** getNonSingularConnectedComponentVectors returns the first vectors instead of the ones
    with more than one vertex. *)
Theorem C18_non_singular_refuted : exists cvs out S,
  get_non_singular_components cvs = Ok out /\ In S cvs /\ 1 < length S /\ ~ In S out /\
  exists S', In S' out /\ length S' = 1.
Proof.
  exists [[0];[1;2;3]], [[0]], [1;2;3]. checkI.
  - intros [H|[]]. discriminate.
  - exists [0]. checkI.
Qed.
Print Assumptions C18_non_singular_refuted.

(** What it returns, for every list of components: the first vectors, as many as there are
    components with more than one vertex; so it is right exactly when those come first. *)
Theorem C18_non_singular_exact : forall cvs,
  let big := filter (fun S => Nat.ltb 1 (length S)) cvs in
  get_non_singular_components cvs = Ok (firstn (length big) cvs) /\
  (firstn (length big) cvs = big <->
   exists k, Forall (fun S => 1 < length S) (firstn k cvs) /\ Forall (fun S => length S <= 1) (skipn k cvs)).
Proof. exact non_singular_exact. Qed.
Print Assumptions C18_non_singular_exact.
Example C18_non_singular_case :
  get_non_singular_components [[0;4];[1];[2;3;5]] = Ok [[0;4];[1]] /\
  get_non_singular_components [[0;4];[2;3;5];[1]] = Ok [[0;4];[2;3;5]].
Proof. checkI. Qed.

(** ** C21 *)
Theorem C21_cut_exact : forall g par,
  graph_ok g -> length par = gn g ->
  exists es, get_edges_from_cut g par = Ok es /\ StronglySorted lt es /\
    forall e, In e es <-> exists u v, joins g e u v /\
      nth_error par u = Some true /\ nth_error par v = Some false.
Proof. exact cut_ok. Qed.
Print Assumptions C21_cut_exact.

(** The edge list of the graph: every edge once, in order, so that reading off the end points
    gives back the list of pairs. *)
Theorem C21_edge_list : forall g, StronglySorted lt (get_edge_vector_of_graph g) /\
  (forall e, In e (get_edge_vector_of_graph g) <-> exists u v, joins g e u v) /\
  get_vertex_pairs g (get_edge_vector_of_graph g) = Ok (ge g).
Proof. exact edge_vector_ok. Qed.
Print Assumptions C21_edge_list.

Theorem C21_induced_exact : forall g vs,
  no_parallel g -> Forall (fun v => v < gn g) vs -> NoDup vs ->
  exists es, get_edges_induced g vs = Ok es /\ NoDup es /\
    forall e, In e es <-> exists u v, In u vs /\ In v vs /\ u <> v /\ joins g e u v.
Proof.
  intros g vs Hp Hf Hn. destruct (induced_ok g vs Hf Hn) as (es & E & Hd & H).
  exists es. split; auto. split; auto. intros e. rewrite H. split.
  - intros (u & v & H1 & H2 & H3 & [H4 _]). eauto 6.
  - intros (u & v & H1 & H2 & H3 & H4). exists u, v. split; auto. split; auto. split; auto.
    split; auto. intros f Hf'. rewrite (Hp e f u v H4 Hf'). lia.
Qed.
Print Assumptions C21_induced_exact.

Example C21_case : get_edges_from_cut cut_g [true;true;true;false;false;false] = Ok [6;7] /\
  get_edges_induced cut_g [4;0;2;3] = Ok [7;3;2;6] /\ NoDup [4;0;2;3].
Proof. checkI. Qed.

(** With parallel edges only the first of each bundle is returned. *)
Theorem C21_parallel_edges_refuted : exists g vs es e,
  graph_ok g /\ NoDup vs /\ get_edges_induced g vs = Ok es /\ joins g e 0 1 /\
  In 0 vs /\ In 1 vs /\ ~ In e es.
Proof.
  exists (mkGraph 2 [(0,1);(1,0)]), [0;1], [0], 1. checkI. right. reflexivity.
Qed.
Print Assumptions C21_parallel_edges_refuted.

(** ** C23 *)
Theorem C23_rolling_list_is_suffix : forall (A : Type) (hist : list A) (n : nat), 1 <= n ->
  let l := fold_left (fun l a => push_rolling l a (Z.of_nat n)) hist [] in
  length l = Nat.min n (length hist) /\ exists old, hist = old ++ l.
Proof.
  intros A hist n Hn l. assert (E : l = skipn (length hist - n) hist) by (now apply push_rolling_history).
  rewrite E. split; [rewrite skipn_length; lia|].
  exists (firstn (length hist - n) hist). now rewrite firstn_skipn.
Qed.
Print Assumptions C23_rolling_list_is_suffix.

Theorem C23_disabled : forall (A : Type) (hist : list A) mx, (mx < 1)%Z ->
  fold_left (fun l a => push_rolling l a mx) hist [] = [].
Proof. exact @push_rolling_off. Qed.
Print Assumptions C23_disabled.

Theorem C23_tailing_off_exact : forall (A : Type) (small : A -> A -> bool) l mx,
  exists b, is_node_tailing_off small l mx = Ok b /\
    (b = true <-> Z.of_nat (length l) = mx /\
       exists x m y, l = x :: m ++ [y] /\ small x y = true).
Proof. exact @tailing_off_spec. Qed.
Print Assumptions C23_tailing_off_exact.

Example C23_case : fold_left (fun l a => push_rolling l a 3) [9;8;6;5;5]%Z [] = [6;5;5]%Z /\
  is_node_tailing_off (fun a b => a - b <? 2)%Z [6;5;5]%Z 3 = Ok true /\
  is_node_tailing_off (fun a b => a - b <? 2)%Z [9;8;6]%Z 3 = Ok false /\
  is_node_tailing_off (fun a b => a - b <? 2)%Z [6;5]%Z 3 = Ok false /\
  (** a list of length 1 never tails off *)
  is_node_tailing_off (fun a b => a - b <? 2)%Z [6]%Z 1 = Ok false.
Proof. checkI. Qed.

(** ** C32 *)
Theorem C32_self_loops : forall g vs, Forall (fun v => v < gn g) vs ->
  (exists ls, get_self_loops g vs = Ok ls /\ Forall2 (fun v l => step_edge g v v l) vs ls) \/
  (get_self_loops g vs = Throw NoSelfLoopFoundException /\
   exists v, In v vs /\ ~ is_edge g v v).
Proof. exact self_loops_spec. Qed.
Print Assumptions C32_self_loops.

Theorem C32_edges_from_pairs : forall g ps, Forall (fun p => fst p < gn g) ps ->
  (exists es, edges_from_vertex_pairs g ps = Ok es /\
     Forall2 (fun p e => step_edge g (fst p) (snd p) e) ps es) \/
  (edges_from_vertex_pairs g ps = Throw EdgeNotFoundException /\
   exists p, In p ps /\ ~ is_edge g (fst p) (snd p)).
Proof. exact vertex_pairs_spec. Qed.
Print Assumptions C32_edges_from_pairs.

Theorem C32_edge_variables : forall (m : nat -> option nat) es,
  (exists vs, get_edge_variables m es = Ok vs /\ Forall2 (fun e v => m e = Some v) es vs) \/
  (get_edge_variables m es = Throw VariableIsNullException /\ exists e, In e es /\ m e = None).
Proof. exact variables_spec. Qed.
Print Assumptions C32_edge_variables.

Theorem C32_vertices_of_edges : forall g es, Forall (fun e => e < length (ge g)) es ->
  exists vs, get_vertices_of_edges g es = Ok vs /\ StronglySorted lt vs /\
    forall v, In v vs <-> exists e u, In e es /\ joins g e v u.
Proof. exact vertices_of_edges_ok. Qed.
Print Assumptions C32_vertices_of_edges.

Example C32_case : get_self_loops cut_g [4;0;4] = Ok [12;8;12] /\
  get_self_loops (mkGraph 3 [(0,0);(1,2)]) [0;1] = Throw NoSelfLoopFoundException /\
  edges_from_vertex_pairs cut_g [(1,0);(3,2);(5,5)] = Ok [0;6;13] /\
  edges_from_vertex_pairs cut_g [(1,0);(1,3)] = Throw EdgeNotFoundException /\
  get_edge_variables (var_map cut_g) [3;1] = Ok [3;1] /\
  get_edge_variables (var_map cut_g) [3;14] = Throw VariableIsNullException /\
  get_vertices_of_edges cut_g [6;4;2;13] = Ok [0;2;3;4;5].
Proof. checkI. Qed.

(** A vertex that is not in the graph is read out of bounds, not reported. *)
Theorem C32_unknown_vertex_refuted : exists g vs ps, graph_ok g /\
  get_self_loops g vs = UB VecOOB /\ edges_from_vertex_pairs g ps = UB VecOOB.
Proof. exists cut_g, [6], [(6,0)]. checkI. Qed.
Print Assumptions C32_unknown_vertex_refuted.

(** ** C33 *)
Theorem C33_prize_feasible_exact : forall p P quota vs,
  Forall (fun x => - P <= x <= P)%Z p -> Forall (fun v => v < length p) vs ->
  (Z.of_nat (length vs) * P <= int_max)%Z ->
  exists b z, is_prize_feasible p quota vs = Ok b /\ prize_sum p vs z /\
    (b = true <-> (quota <= z)%Z).
Proof. exact prize_feasible_ok. Qed.
Print Assumptions C33_prize_feasible_exact.

Example C33_case : is_prize_feasible cut_p 9 [1;2;3] = Ok true /\
  is_prize_feasible cut_p 10 [1;2;3] = Ok false /\ prize_sum cut_p [1;2;3] 9.
Proof. checkI. Qed.

(** A closed tour lists its first vertex twice and its prize is counted twice. *)
Theorem C33_closed_tour_refuted : exists g p quota t,
  tour_from g 0 t /\ prizes_within g p 0 6 /\ is_prize_feasible p quota t = Ok true /\
  ~ meets_quota p quota t.
Proof.
  exists cut_g, [6;1;1;1;1;1]%Z, 9%Z, [0;1;2;0]. checkI.
  intros (z & Hz & Hq).
  assert (Hz' : tour_prize [6;1;1;1;1;1]%Z [0;1;2;0] 8) by check2.
  rewrite (prize_sum_fun _ _ _ _ Hz Hz') in Hq. lia.
Qed.
Print Assumptions C33_closed_tour_refuted.

(** ** C36 *)
Theorem C36_solution_edges_exact : forall g s entries,
  (0 < s_den s)%Z -> var_entries g entries ->
  exists es, get_solution_edges g s entries = Ok es /\ NoDup es /\
    forall e, In e es <-> exists u v, joins g e u v /\ u <> v /\
      (s_den s < s_num s e * 1000000000)%Z.
Proof. exact solution_edges_exact. Qed.
Print Assumptions C36_solution_edges_exact.

Theorem C36_solution_vertices_exact : forall g s, (0 < s_den s)%Z -> all_loops g ->
  exists vs, get_solution_vertices g s (var_map g) = Ok vs /\ StronglySorted lt vs /\
    forall v, In v vs <-> exists l, step_edge g v v l /\ v < gn g /\
      (s_den s < s_num s l * 1000000000)%Z.
Proof. exact solution_vertices_exact. Qed.
Print Assumptions C36_solution_vertices_exact.

Theorem C36_extractions_agree : forall g s rows entries,
  graph_ok g -> no_parallel g -> all_loops g -> binary g s ->
  degree_constraints g = Ok rows -> Forall (row_sat s) rows -> var_entries g entries ->
  exists es vs, get_solution_edges g s entries = Ok es /\
    get_solution_vertices g s (var_map g) = Ok vs /\ get_vertices_of_edges g es = Ok vs.
Proof. exact extraction_agrees. Qed.
Print Assumptions C36_extractions_agree.

Theorem C36_solution_graph_exact : forall g sg s entries,
  (0 < s_den s)%Z -> var_entries g entries ->
  exists es sg', get_solution_edges g s entries = Ok es /\
    get_solution_graph g sg s entries = Ok sg' /\
    exists ps, Forall2 (fun e p => nth_error (ge g) e = Some p) es ps /\ ge sg' = ge sg ++ ps.
Proof. exact solution_graph_exact. Qed.
Print Assumptions C36_solution_graph_exact.

Theorem C36_integral_exact : forall n s, (0 < s_den s)%Z ->
  (is_solution_integral n s = true <->
   forall v, v < n -> exists k, (Z.abs (s_num s v - k * s_den s) * 1000000000 <= s_den s)%Z).
Proof. exact solution_integral_spec. Qed.
Print Assumptions C36_integral_exact.

Example C36_case : var_entries cut_g (map (fun e => (e, e)) (seq 0 14)) /\
  get_solution_edges cut_g cut_tour (map (fun e => (e, e)) (seq 0 14)) = Ok [0;1;3;6;7] /\
  get_solution_vertices cut_g cut_tour (var_map cut_g) = Ok [0;1;2;3;4] /\
  get_vertices_of_edges cut_g [0;1;3;6;7] = Ok [0;1;2;3;4] /\
  get_solution_graph cut_g (mkGraph 0 []) cut_tour (map (fun e => (e, e)) (seq 0 14))
    = Ok (mkGraph 5 [(0,1);(1,2);(3,4);(2,3);(0,4)]) /\
  is_solution_integral 14 cut_tour = true /\
  is_solution_integral 3 (mkSol 2 (fun v => Z.of_nat v)) = false.
Proof. checkI. apply Permutation_refl. Qed.

(** At a fractional point of the degree rows the extractions can differ: here every edge has
    value 1e-9, which SCIP takes for zero, while the self loops are above that. *)
Theorem C36_tolerance_refuted : exists g s rows entries es vs vs',
  graph_ok g /\ no_parallel g /\ all_loops g /\ (0 < s_den s)%Z /\
  (forall e, 0 <= s_num s e <= s_den s)%Z /\
  degree_constraints g = Ok rows /\ Forall (row_sat s) rows /\ var_entries g entries /\
  get_solution_edges g s entries = Ok es /\ get_solution_vertices g s (var_map g) = Ok vs /\
  get_vertices_of_edges g es = Ok vs' /\ vs <> vs'.
Proof.
  exists (mkGraph 5 [(0,1);(0,2);(0,3);(1,4);(2,4);(3,4);(1,2);(1,3);(2,3);(0,0);(1,1);(2,2);(3,3);(4,4)]),
    (mkSol 2000000000%Z (fun e => if Nat.ltb e 9 then 2%Z else if Nat.ltb e 14 then
       (if memb e [9;13] then 3%Z else 4%Z) else 0%Z)).
  eexists. exists (map (fun e => (e, e)) (seq 0 14)). do 3 eexists. checkI.
  - intros e. cbn [s_num s_den]. destruct (Nat.ltb e 9); [lia|]. destruct (Nat.ltb e 14); [|lia].
    destruct (memb e [9;13]); lia.
  - apply Permutation_refl.
Qed.
Print Assumptions C36_tolerance_refuted.

(** ** C45 *)
Theorem C45_fill_exact : forall pos neg,
  fill_positive_negative_vars pos neg (length pos + length neg) (length pos + length neg) =
  Ok (pos ++ neg, repeat 1%Z (length pos) ++ repeat (-1)%Z (length neg)).
Proof. exact fill_ok. Qed.
Print Assumptions C45_fill_exact.

(** The row built from the two vectors is sum of the first minus sum of the second. *)
Theorem C45_row_value : forall lib pos neg lhs rhs st,
  efficacious lib (mkLin (combine (pos ++ neg)
     (repeat 1%Z (length pos) ++ repeat (-1)%Z (length neg))) lhs rhs) = true ->
  exists vars coefs row st',
    fill_positive_negative_vars pos neg (length pos + length neg) (length pos + length neg)
      = Ok (vars, coefs) /\
    add_row lib vars coefs lhs rhs st = Ok st' /\
    sp_rows st' = sp_rows st ++ [row] /\ l_lhs row = lhs /\ l_rhs row = rhs /\
    (forall x : nat -> Z, lin_value x (l_terms row) = (zsum x pos - zsum x neg)%Z) /\
    (sp_result st' = Cutoff <-> row_infeasible lib row = true) /\
    (sp_result st' = Separated <-> row_infeasible lib row = false).
Proof.
  intros lib pos neg lhs rhs st Heff. exists (pos ++ neg).
  exists (repeat 1%Z (length pos) ++ repeat (-1)%Z (length neg)). eexists.
  destruct (add_row_ok lib (pos ++ neg) (repeat 1%Z (length pos) ++ repeat (-1)%Z (length neg))
    lhs rhs st) as (st' & E & Hs).
  { now rewrite !app_length, !repeat_length. }
  cbn zeta in Hs. rewrite Heff in Hs. exists st'. split; [apply fill_ok|]. split; [exact E|].
  rewrite Hs. cbn [sp_rows sp_result]. split; [reflexivity|]. split; [reflexivity|]. split; [reflexivity|].
  split.
  { intros x. cbn [l_terms]. rewrite combine_app_eq by (now rewrite repeat_length).
    rewrite lin_value_app, !lin_value_const. lia. }
  destruct (row_infeasible lib _); split; split; auto; discriminate.
Qed.
Print Assumptions C45_row_value.

Theorem C45_row_not_efficacious : forall lib vars coefs lhs rhs st,
  length coefs = length vars ->
  efficacious lib (mkLin (combine vars coefs) lhs rhs) = false ->
  add_row lib vars coefs lhs rhs st = Ok st.
Proof.
  intros lib vars coefs lhs rhs st Hl Heff.
  destruct (add_row_ok lib vars coefs lhs rhs st Hl) as (st' & E & Hs).
  cbn zeta in Hs. rewrite Heff in Hs. now subst.
Qed.
Print Assumptions C45_row_not_efficacious.

Example C45_case : fill_positive_negative_vars [4;7] [1;2;3] 5 5 = Ok ([4;7;1;2;3], [1;1;-1;-1;-1]%Z) /\
  add_row all_rows [4;7;1] [1;1;-1]%Z None (Some 0%Z) no_rows =
    Ok (mkSepa [mkLin [(4,1%Z);(7,1%Z);(1,(-1)%Z)] None (Some 0%Z)] Separated) /\
  (** vectors of the wrong size *)
  fill_positive_negative_vars [4;7] [1] 5 5 = UB VecOOB.
Proof. checkI. Qed.

(** A cutoff is lost when the next row of the same separation round is feasible. *)
Theorem C45_cutoff_lost_refuted : exists lib g s root row st',
  graph_ok g /\ no_parallel g /\ all_loops g /\ root < gn g /\ binary g s /\
  separate_subtour_disjoint lib g s (var_map g) root no_rows = Ok (st', 3) /\
  In row (sp_rows st') /\ row_infeasible lib row = true /\ sp_result st' = Separated.
Proof.
  exists (mkLib (fun _ => true)
    (fun r => match l_terms r with _ :: _ :: _ :: (v, _) :: _ => Nat.eqb v 12 | _ => false end)),
    cut_g, cut_two, 0. eexists. eexists. checkI.
Qed.
Print Assumptions C45_cutoff_lost_refuted.
