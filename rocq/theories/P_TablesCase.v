(** * P_TablesCase: the tables of the experiments, and runs *)
From Coq Require Import String QArith.
From Verif Require Import Base P_Base M_Python M_PyWrap M_RunAlg M_Compare M_Stats M_Csv Spec_Compare P_Compare P_CompareRun P_CompareSet Spec_Lab P_Lab Spec_Csv
  P_Csv P_CsvCase M_Tables Spec_Tables P_Tables.
Open Scope nat_scope.
Open Scope string_scope.

(** ** From the experiments to the tables *)

Lemma with_stats_in F vials v r s : In (v, r, s) (with_stats F vials) -> In v vials.
Proof.
  unfold with_stats, with_result. intros I. apply in_flat_map in I. destruct I as ((v' & r') & I & J).
  apply in_flat_map in I. destruct I as (v'' & I & K).
  destruct (ef_result F (fv_uuid v'')); try (destruct K; fail). destruct K as [K|[]]. injection K as <- <-.
  destruct (ef_stats F (fv_uuid v'')); try (destruct J; fail). destruct J as [J|[]]. injection J as <- <- <-. exact I.
Qed.

Lemma with_result_in F vials v r : In (v, r) (with_result F vials) -> In v vials.
Proof.
  unfold with_result. intros I. apply in_flat_map in I. destruct I as (v'' & I & K).
  destruct (ef_result F (fv_uuid v'')); try (destruct K; fail). destruct K as [K|[]]. injection K as <- <-. exact I.
Qed.

Lemma experiment_parts_in F uuid d e vs v : experiment_vials F uuid d e = Ok vs -> In v vs ->
  In (fv_params v) (settings e) /\ instance_of F d e (fv_data v).
Proof.
  intros E I. destruct (experiment_settings F uuid d e vs E) as (data & M & D).
  assert (J : In (fv_data v, fv_params v) (map (fun v => (fv_data v, fv_params v)) vs)).
  { apply (in_map (fun v => (fv_data v, fv_params v)) _ _ I). }
  rewrite M in J. apply in_flat_map in J. destruct J as (x & X & J). apply in_map_iff in J. destruct J as (y & Q & Y).
  injection Q as <- <-. split; [exact Y|apply D; exact X].
Qed.

Lemma cover_setting e fp : e = CostCover \/ e = CcLondonaqAlpha -> In fp (settings e) ->
  exists dp sp, mp_cc_disjoint (fp_model fp) = Some dp /\ mp_cc_shortest (fp_model fp) = Some sp /\ dp && sp = false.
Proof.
  intros [->| ->] I; cbn in I; destruct I as [<-|[<-|[<-|[]]]]; cbn; eexists; eexists; split; try reflexivity; split; reflexivity.
Qed.

Lemma cover_rows F uuid d e vs EF : experiment_vials F uuid d e = Ok vs -> e = CostCover \/ e = CcLondonaqAlpha ->
  (forall n, laq_cost F n <> "SEMI_MST") ->
  forall r, In r (map vial_row (with_stats EF vs)) -> (exists n, cover_name r n) /\ t_cost_function r <> "SEMI_MST" /\
    t_graph r <> "laqtinyA" /\ forall n, exists k, cc_group d e (r, n) = Some k.
Proof.
  intros E EE LC r I. apply in_map_iff in I. destruct I as (((v & x) & s) & <- & I). apply with_stats_in in I.
  destruct (experiment_parts_in F uuid d e vs v E I) as (SE & IN).
  destruct (cover_setting e _ EE SE) as (dp & sp & D & S & N). split.
  - destruct dp, sp; try discriminate N.
    + exists CcDisjoint. split; [exact D|exact S].
    + exists CcShortest. split; [exact D|exact S].
    + exists CcNone. split; [exact D|exact S].
  - unfold cc_group. cbn [vial_row t_cost_function t_graph t_alpha t_quota fst snd]. destruct d, EE as [->| ->]; cbn in IN; try contradiction.
    + destruct IN as (q & n & _ & C & ->). cbn. split; [apply LC|].
      split; [destruct C as [<-|[<-|[<-|[<-|[]]]]]; discriminate|eauto].
    + destruct IN as (q & n & _ & C & ->). cbn. split; [apply LC|].
      split; [destruct C as [<-|[<-|[<-|[<-|[]]]]]; discriminate|eauto].
    + destruct IN as (a & k & g & n & c & _ & _ & _ & C & K & ->). cbn.
      split; [destruct K as [<-|[<-|[]]]; discriminate|].
      split; [repeat (destruct C as [<-|C]; [discriminate|]); destruct C|eauto].
Qed.

Lemma selected_all {A} (P : A -> Prop) l sub : selected P l sub -> (forall x, In x l -> P x) -> sub = l.
Proof.
  induction 1 as [|x l sub p S IH|x l sub n S IH]; intros H; [reflexivity| |].
  - f_equal. apply IH. intros; apply H; cbn; auto.
  - destruct n. apply H. cbn. auto.
Qed.

Lemma cost_cover_experiment F uuid d e vs EF : experiment_vials F uuid d e = Ok vs -> e = CostCover \/ e = CcLondonaqAlpha ->
  (forall n, laq_cost F n <> "SEMI_MST") ->
  proper_files EF vs -> (exists v r s, In v vs /\ ef_result EF (fv_uuid v) = RFile r /\ ef_stats EF (fv_uuid v) = SFile s) ->
  exists f rows named groups t, branch_cut_csv EF = Ok f /\ mapM read_row (f_rows f) = Ok rows /\
    rows = map vial_row (with_stats EF vs) /\ cost_cover_table d e rows = Ok t /\
    map fst named = rows /\ Forall (fun x => cover_name (fst x) (snd x)) named /\
    (forall x, In x named -> exists k, cc_group d e x = Some k) /\
    grouped eq (cc_group d e) named groups /\
    Forall2 (fun g c => fst g = fst c /\ cc_line_ok (map fst (snd g)) (snd c)) groups t.
Proof.
  intros E EE LC P (v0 & r0 & s0 & I0 & R0 & S0).
  pose proof (cover_rows F uuid d e vs EF E EE LC) as PROP.
  set (rows := map vial_row (with_stats EF vs)) in *.
  destruct (cost_cover_table_ok d e rows EE) as (sub & named & groups & t & T & S & M & C & G & L).
  { intros r I _. destruct (PROP r I) as (N & _). exact N. }
  apply selected_all in S; [|intros r I; destruct (PROP r I) as (_ & A & B & _); auto]. subst sub.
  exists (branch_cut_table EF vs), rows, named, groups, t. split.
  { apply branch_cut_ok; [exact P| |eauto].
    assert (In (v0, r0) (with_result EF vs)) by (unfold with_result; apply in_flat_map; exists v0; rewrite R0; cbn; auto).
    intros X. rewrite X in H. destruct H. }
  split; [apply read_table|]. split; [reflexivity|]. split; [exact T|]. split; [exact M|]. split; [exact C|].
  split; [|split; [exact G|exact L]]. intros (r & n) I.
  assert (J : In r (map fst named)) by (apply (in_map fst) in I; exact I). rewrite M in J.
  destruct (PROP r J) as (_ & _ & _ & K). apply K.
Qed.

Lemma algorithm_names a : exists s, In (algorithm_value a, s) names.
Proof. destruct a; eexists; unfold names; cbn [In algorithm_value]; tauto. Qed.

Lemma heuristics_experiment F uuid d e vs e' ws EF EF' : experiment_vials F uuid d e' = Ok ws -> e' = CostCover \/ e' = CcLondonaqAlpha ->
  proper_files EF vs -> with_result EF vs <> [] -> proper_files EF' ws -> with_result EF' ws <> [] ->
  (exists v s, In v ws /\ ef_stats EF' (fv_uuid v) = SFile s) -> forall only,
  exists f f' runs rows t, heuristics_csv EF = Ok f /\ branch_cut_csv EF' = Ok f' /\
    mapM read_heur_row (f_rows f) = Ok (map heur_vial_row (with_result EF vs)) /\
    mapM read_exact_row (f_rows f') = Ok (map exact_vial_row (with_stats EF' ws)) /\
    get_heuristics_df d (map heur_vial_row (with_result EF vs)) (map exact_vial_row (with_stats EF' ws)) = Ok rows /\
    firsts (same_run d) [] (map heur_vial_row (with_result EF vs)) runs /\
    Forall2 (fun h j => bound_of d (map exact_vial_row (with_stats EF' ws)) h (j_lower j) /\ joined_ok h j) runs rows /\
    heuristics_lines d e only rows = Ok t.
Proof.
  intros E EE P N P' N' S only.
  destruct (heuristics_df_ok d (map heur_vial_row (with_result EF vs)) (map exact_vial_row (with_stats EF' ws))) as (runs & rows & G & FR & J).
  { intros x I. apply in_map_iff in I. destruct I as (((v & r) & s) & <- & I). apply with_stats_in in I.
    destruct (experiment_parts_in F uuid d e' ws v E I) as (SE & _).
    destruct (cover_setting e' _ EE SE) as (dp & sp & D & _). cbn. rewrite D. discriminate. }
  { intros h p I. apply in_map_iff in I. destruct I as ((v & r) & <- & I). cbn. destruct (Z.leb _ _); discriminate. }
  destruct (heuristics_lines_ok d e only rows) as (sub & groups & t & T & _).
  { intros j I. assert (X : exists h, In h runs /\ j_heur j = h).
    { clear - J I. induction J as [|h j' runs rows (B & Q) J IH]; [destruct I|]. destruct I as [<-|I].
      - exists h. split; [cbn; auto|apply (joined_heur _ _ Q)].
      - destruct (IH I) as (h' & A & B'). exists h'. cbn. auto. }
    destruct X as (h & HI & ->).
    assert (In h (map heur_vial_row (with_result EF vs))).
    { clear - FR HI. induction FR; cbn in *; [destruct HI|destruct HI as [<-|I]; auto|auto]. }
    apply in_map_iff in H. destruct H as ((v & r) & <- & _). cbn. apply algorithm_names. }
  exists (Spec_Csv.heuristics_table EF vs), (branch_cut_table EF' ws), runs, rows, t.
  split; [apply heuristics_ok; assumption|]. split; [apply branch_cut_ok; assumption|].
  split; [apply read_heur_table|]. split; [apply read_exact_table|]. auto.
Qed.

(** A heuristic that is called optimal is: nothing is cheaper than a valid bound. *)
Lemma heuristic_optimal d heur exact rows j (cost_of : exact_row -> Q -> Prop) :
  (forall e, In e exact -> e_disjoint e <> None) -> (forall h p, In h heur -> h_objective h <> Inf p) ->
  (forall e z, In e exact -> cost_of e z -> (e_lower e <= z)%Q) ->
  get_heuristics_df d heur exact = Ok rows -> In j rows -> j_optimal j = true ->
  In (j_heur j) heur /\ exists e c, In e exact /\ same_instance d (j_heur j) e /\ h_objective (j_heur j) = Fin c /\
    forall z, cost_of e z -> (c <= z)%Q.
Proof.
  intros N NI V G I O. destruct (heuristics_df_ok d heur exact N NI) as (runs & rows' & G' & FR & J).
  rewrite G in G'. injection G' as <-.
  assert (X : exists h, In h runs /\ bound_of d exact h (j_lower j) /\ joined_ok h j).
  { clear - J I. induction J as [|h j' runs rows Q J IH]; [destruct I|]. destruct I as [<-|I].
    - exists h. cbn. tauto.
    - destruct (IH I) as (h' & A & B'). exists h'. cbn. auto. }
  destruct X as (h & HI & B & K). pose proof (joined_heur _ _ K) as HH.
  apply (joined_optimal _ _ K) in O. destruct O as (c & b & HO & HL & Q & _).
  assert (Hh : In h heur).
  { clear - FR HI. induction FR; cbn in *; [destruct HI|destruct HI as [<-|I]; auto|auto]. }
  rewrite HH. split; [exact Hh|].
  destruct B as [(l1 & e & l2 & EQ & D & SI & _ & L)|(_ & L)]; [|congruence].
  assert (IE : In e exact) by (rewrite EQ; apply in_or_app; cbn; auto).
  exists e, c. split; [exact IE|]. split; [exact SI|]. split; [exact HO|].
  intros z Z0. rewrite Q. rewrite HL in L. injection L as ->. apply (V e z IE Z0).
Qed.

Lemma heuristics_empty_field d heur exact e : In e exact -> e_disjoint e = None -> get_heuristics_df d heur exact = Throw ValueErrorPy.
Proof.
  intros I N. unfold get_heuristics_df. destruct (existsb _ exact) eqn:E; [reflexivity|].
  assert (X : existsb (fun e => match e_disjoint e with None => true | _ => false end) exact = true).
  { apply existsb_exists. exists e. rewrite N. auto. }
  rewrite X in E. discriminate.
Qed.

Lemma cover_empty_field d e rows r : In r rows -> t_cost_function r <> "SEMI_MST" ->
  truthy (t_disjoint r) = true -> truthy (t_shortest r) = true -> cost_cover_table d e rows = Throw ValueErrorPy.
Proof.
  intros I C D S. unfold cost_cover_table.
  set (l := filter (fun r => negb (String.eqb (t_cost_function r) "SEMI_MST")) rows).
  assert (J : In r l).
  { apply filter_In. split; [exact I|]. apply negb_true_iff. apply String.eqb_neq. exact C. }
  assert (X : mapM (fun r => do n <- get_cc_name (t_disjoint r) (t_shortest r); Ok (r, n)) l = Throw ValueErrorPy).
  { clearbody l. clear I. induction l as [|x l IH]; [destruct J|]. cbn [mapM]. destruct J as [->|J].
    - unfold get_cc_name. rewrite D, S. reflexivity.
    - unfold get_cc_name at 1. destruct (truthy (t_disjoint x)), (truthy (t_shortest x)); cbn [bind]; try reflexivity;
        rewrite (IH J); reflexivity. }
  rewrite X. reflexivity.
Qed.

(** ** Runs *)

Definition row_of (cost graph : string) (alpha : Z) (dp sp : bool) (status : Z) (lb ub : Q) (ok : bool) : table_row :=
  mkTableRow cost graph 7 (Some alpha) (Some dp) (Some sp) (Some 1%Z) (Some 2%Z) (Some (1 # 1000)%Q) (Some 5%Z)
    status lb ub ok 40 3 4 2 5 6.

Definition rows5 : list table_row :=
  [row_of "MST" "st70" 5 true false 11 (10 # 1) (10 # 1) true;
   row_of "MST" "rat195" 5 true false 5 (10 # 1) (15 # 1) true;
   row_of "MST" "a280" 5 false false 12 big_number big_number false;
   row_of "MST" "eil51" 5 true false 5 (10 # 1) big_number false;
   row_of "SEMI_MST" "st70" 5 true true 11 (1 # 1) (1 # 1) true].

Lemma rows5_cover : cost_cover_table Tspwplib CostCover rows5 =
    Ok [(("MST", 5%Z, CcDisjoint), mkCc (Fin (120 # 3)) (Fin (30 # 3)) (Fin (25 # 2)) (Fin (50 # 200)) 1 2 (Fin (63 # 9)));
        (("MST", 5%Z, CcNone), mkCc (Fin (40 # 1)) NaN NaN NaN 0 0 (Fin (7 # 1)))] /\
  (forall r, In r rows5 -> t_cost_function r <> "SEMI_MST" -> exists n, cover_name r n) /\
  cost_cover_table Tspwplib Baseline rows5 = Throw UnboundLocalErrorPy.
Proof.
  split; [vm_compute; reflexivity|]. split; [|vm_compute; reflexivity].
  intros r I C. destruct I as [<-|[<-|[<-|[<-|[<-|[]]]]]].
  - exists CcDisjoint. split; reflexivity.
  - exists CcDisjoint. split; reflexivity.
  - exists CcNone. split; reflexivity.
  - exists CcDisjoint. split; reflexivity.
  - destruct C. reflexivity.
Qed.

Lemma rows5_tailing : tailing_off_table (firstn 2 rows5) =
  [((1, 2, 1 # 1000, 5)%Z, mkTailing (Fin (80 # 2)) (Fin (50 # 200)) 1 2 (Fin (4 # 2)) (Fin (176 # 32)))].
Proof. vm_compute. reflexivity. Qed.

(** An optimal solution of cost 0 is not counted. *)
Lemma zero_not_counted : exists r t, solved_with_cost r 0 /\ cost_cover_table Tspwplib CostCover [r] = Ok t /\
  map (fun x => cl_optimal (snd x)) t = [0] /\ map (fun x => tl_optimal (snd x)) (tailing_off_table [r]) = [0].
Proof.
  exists (row_of "MST" "st70" 5 true false 11 0 0 true). eexists. split; [split; [reflexivity|split; reflexivity]|].
  split; [reflexivity|]. split; vm_compute; reflexivity.
Qed.

(** An instance without any solution is counted as optimal. *)
Lemma infeasible_counted : exists r, t_status r = status_infeasible /\ t_feasible r = false /\
  map (fun x => (tl_optimal (snd x), tl_feasible (snd x))) (tailing_off_table [r]) = [(1, 0)].
Proof. exists (row_of "MST" "a280" 5 true false 12 big_number big_number false). vm_compute. auto. Qed.

(** One run that found no solution decides the mean of the gaps. *)
Lemma unknown_in_mean : exists r1 r2 q, has_bounds r1 /\ ~ has_bounds r2 /\ (t_upper r1 == t_lower r1)%Q /\
  map (fun x => tl_gap (snd x)) (tailing_off_table [r1; r2]) = [Fin q] /\ (1000000000000000000 # 1 < q)%Q /\
  exists t, cost_cover_table Tspwplib CostCover [r1; r2] = Ok t /\ exists q', map (fun x => cl_gap (snd x)) t = [Fin q'] /\ (q' == 0)%Q.
Proof.
  exists (row_of "MST" "st70" 5 true false 11 (10 # 1) (10 # 1) true), (row_of "MST" "eil51" 5 true false 5 (10 # 1) big_number false).
  eexists. split; [unfold has_bounds; cbn; split; [discriminate|split; discriminate]|].
  split; [unfold has_bounds; cbn; intros (_ & _ & X); apply X; reflexivity|].
  split; [reflexivity|]. split; [vm_compute; reflexivity|]. split; [vm_compute; reflexivity|].
  eexists. split; [reflexivity|]. eexists. split; [vm_compute; reflexivity|reflexivity].
Qed.

Definition heur_of (graph alg : string) (cost : num) (ok : bool) : heur_row :=
  mkHeur "tspwplib" graph 7 1 (Some "gen1") (Some 5%Z) "MST" (Some 5%Z) alg None None None cost ok 20.
Definition exact_of (graph : string) (dp : option bool) (lb : Q) : exact_row :=
  mkExact "tspwplib" graph 7 1 (Some "gen1") (Some 5%Z) "MST" dp lb (100 # 1).

Definition heurs : list heur_row :=
  [heur_of "st70" "suurballes_heuristic" (Fin (12 # 1)) true; heur_of "st70" "suurballes_heuristic" (Fin (13 # 1)) true;
   heur_of "rat195" "suurballes_heuristic" (Fin (15 # 1)) true; heur_of "a280" "suurballes_heuristic" NaN false;
   heur_of "eil51" "bfs_extension_collapse" (Fin (12 # 1)) true].
Definition exacts : list exact_row :=
  [exact_of "st70" (Some false) (1 # 1); exact_of "st70" (Some true) (12 # 1); exact_of "rat195" (Some true) (10 # 1);
   exact_of "a280" (Some true) (10 # 1)].

Definition the_rows {A} (r : res (list A)) : list A := match r with Ok l => l | _ => [] end.

Lemma heurs_case : (forall e, In e exacts -> e_disjoint e <> None) /\ (forall h p, In h heurs -> h_objective h <> Inf p) /\
  map (fun j => (h_graph (j_heur j), j_lower j, j_gap j, j_optimal j)) (the_rows (get_heuristics_df Tspwplib heurs exacts)) =
    [("st70", Fin (12 # 1), Fin (0 # 12), true); ("rat195", Fin (10 # 1), Fin (5 # 10), false);
     ("a280", Fin (10 # 1), NaN, false); ("eil51", NaN, NaN, false)] /\
  (forall j, In j (the_rows (get_heuristics_df Tspwplib heurs exacts)) -> exists s, In (h_algorithm (j_heur j), s) names) /\
  heuristics_lines Tspwplib CompareHeuristics false (the_rows (get_heuristics_df Tspwplib heurs exacts)) =
    Ok [(("MST", 5%Z, "SBL"), mkHeurLine 1 2 (Fin (60 # 240)) (Fin (60 # 3)));
        (("MST", 5%Z, "BFS-EC"), mkHeurLine 0 1 NaN (Fin (20 # 1)))].
Proof.
  split; [intros e I; cbn in I; repeat (destruct I as [<-|I]; [discriminate|]); destruct I|].
  split; [intros h p I; cbn in I; repeat (destruct I as [<-|I]; [discriminate|]); destruct I|].
  split; [vm_compute; reflexivity|]. split; [|vm_compute; reflexivity].
  intros j I. vm_compute in I. unfold names. repeat (destruct I as [<-|I]; [eexists; cbn; tauto|]). destruct I.
Qed.

(** A heuristic that finds an optimal tour is not called optimal if the bound is not tight or the cost is 0. *)
Lemma optimal_missed : exists h e rows, same_instance Tspwplib h e /\ e_disjoint e = Some true /\ h_objective h = Fin 0 /\
  (e_lower e == 0)%Q /\ get_heuristics_df Tspwplib [h] [e] = Ok rows /\ map j_optimal rows = [false].
Proof.
  exists (heur_of "st70" "suurballes_heuristic" (Fin 0) true), (exact_of "st70" (Some true) 0). eexists.
  split; [repeat split|]. split; [reflexivity|]. split; [reflexivity|]. split; [reflexivity|].
  split; [reflexivity|]. vm_compute. reflexivity.
Qed.

Definition laq_files : problem_files := mkFiles (fun _ _ _ => 10%Z) (fun _ _ => 1) (fun _ _ => 20%Z) (fun _ => 2) (fun _ => "EUC_2D") ["gen1"].

Lemma experiment_case : exists vs EF, experiment_vials laq_files (fun i => i) Londonaq CostCover = Ok vs /\
  (forall n, laq_cost laq_files n <> "SEMI_MST") /\ proper_files EF vs /\ with_result EF vs <> [] /\
  (exists v r s, In v vs /\ ef_result EF (fv_uuid v) = RFile r /\ ef_stats EF (fv_uuid v) = SFile s) /\ List.length vs = 60.
Proof.
  set (vs := the_rows (experiment_vials laq_files (fun i => i) Londonaq CostCover)).
  assert (E : experiment_vials laq_files (fun i => i) Londonaq CostCover = Ok vs) by (vm_compute; reflexivity).
  exists vs, (mkExperimentFiles (Some vs) (fun u => RFile (mkStored u (mkResult 12 1000 [(1, 2); (2, 3); (3, 1)]) 60 100))
    (fun _ => SFile (mkSummary 11 (12 # 1) (12 # 1) 0 0 0 0 0 1 2 3))).
  split; [exact E|]. split; [discriminate|]. split; [|split; [|split]].
  - split.
    + reflexivity.
    + refine (proj2 (experiment_distinct _ _ _ _ _ E _ _)); [repeat constructor; intros []|auto].
    + cbn. intros v r _ X. injection X as <-. reflexivity.
    + discriminate.
    + split; discriminate.
  - vm_compute. discriminate.
  - destruct vs as [|v vs'] eqn:EV; [vm_compute in EV; discriminate|]. exists v. eexists. eexists. split; [cbn; auto|]. split; reflexivity.
  - vm_compute. reflexivity.
Qed.

(** Data of the cases (no model). *)
Definition rows0 : list table_row :=
  [row_of "MST" "st70" 5 true false 5 0 (10 # 1) true; row_of "MST" "rat195" 5 true false 5 (10 # 1) (15 # 1) true;
   row_of "MST" "eil51" 5 true false 5 0 (3 # 1) true].
Definition good_row : row :=
  [("cost_function", CStr "MST"); ("graph_name", CStr "st70"); ("quota", CInt 10); ("alpha", CNaN);
   ("cost_cover_disjoint_paths", CBool true); ("cost_cover_shortest_path", CBool false);
   ("branching_max_depth", CInt 1); ("branching_strategy", CInt 2);
   ("sec_lp_gap_improvement_threshold", CNum (1 # 1000)); ("sec_max_tailing_off_iterations", CInt 5);
   ("status", CInt 11); ("lower_bound", CNum (10 # 1)); ("upper_bound", CNum (10 # 1)); ("feasible", CBool true); ("duration", CTime 40);
   ("nconss_presolve_disjoint_paths", CInt 1); ("nconss_presolve_shortest_paths", CInt 0); ("num_nodes", CInt 2);
   ("num_sec_disjoint_tour", CInt 3); ("num_sec_maxflow_mincut", CInt 4)].
Definition unknown_run : joined :=
  mkJoined (mkHeur "tspwplib" "st70" 10 1 None (Some 5%Z) "MST" None "random" None None None (Fin (10 # 1)) true 5) NaN NaN false.
