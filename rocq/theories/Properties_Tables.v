(** * Properties_Tables: C65, the LaTeX tables *)
From Coq Require Import String QArith.
From Verif Require Import Base M_Python M_PyWrap M_RunAlg M_Compare M_Stats M_Csv Spec_Compare Spec_Lab Spec_Csv M_Tables Spec_Tables
  P_Tables P_TablesCase.
Open Scope nat_scope.
Open Scope string_scope.

(** C65: the table of cost cover. Rows of SEMI_MST and of laqtinyA are left out; every other row is in exactly one group, that
    of its cost function and alpha (or alpha, or quota) and kind of cuts, and the line of the group says how many
    of its rows were solved to optimality and how many are feasible and gives the means over the known bounds. *)
Theorem C65_cost_cover : forall d e rows, e = CostCover \/ e = CcLondonaqAlpha ->
  (forall r, In r rows -> t_cost_function r <> "SEMI_MST" -> exists n, cover_name r n) ->
  exists sub named groups t, cost_cover_table d e rows = Ok t /\
    selected (fun r => t_cost_function r <> "SEMI_MST" /\ (d = Londonaq -> t_graph r <> "laqtinyA")) rows sub /\
    map fst named = sub /\ Forall (fun x => cover_name (fst x) (snd x)) named /\
    grouped eq (cc_group d e) named groups /\
    Forall2 (fun g c => fst g = fst c /\ cc_line_ok (map fst (snd g)) (snd c)) groups t.
Proof. exact cost_cover_table_ok. Qed.
Print Assumptions C65_cost_cover.

(** C65: the table of tailing off, grouped by the four settings. *)
Theorem C65_tailing_off : forall rows, exists groups, grouped same_tailing tailing_group rows groups /\
  Forall2 (fun g t => fst g = fst t /\ tailing_line_ok (snd g) (snd t)) groups (tailing_off_table rows).
Proof. exact tailing_table_ok. Qed.
Print Assumptions C65_tailing_off.

(** C65: from the results of a cost cover experiment to the table: it is written without an exception, and no
    vial with a result and statistics is left out. *)
Theorem C65_experiment : forall F uuid d e vs EF, experiment_vials F uuid d e = Ok vs -> e = CostCover \/ e = CcLondonaqAlpha ->
  (forall n, laq_cost F n <> "SEMI_MST") ->
  proper_files EF vs -> (exists v r s, In v vs /\ ef_result EF (fv_uuid v) = RFile r /\ ef_stats EF (fv_uuid v) = SFile s) ->
  exists f rows named groups t, branch_cut_csv EF = Ok f /\ mapM read_row (f_rows f) = Ok rows /\
    rows = map vial_row (with_stats EF vs) /\ cost_cover_table d e rows = Ok t /\
    map fst named = rows /\ Forall (fun x => cover_name (fst x) (snd x)) named /\
    (forall x, In x named -> exists k, cc_group d e x = Some k) /\
    grouped eq (cc_group d e) named groups /\
    Forall2 (fun g c => fst g = fst c /\ cc_line_ok (map fst (snd g)) (snd c)) groups t.
Proof. exact cost_cover_experiment. Qed.
Print Assumptions C65_experiment.

(** C65: for any other experiment no table is written, although the command offers them all. *)
Theorem C65_other_experiments_refuted : forall d e rows, e <> CostCover -> e <> CcLondonaqAlpha ->
  (forall r, In r rows -> t_cost_function r <> "SEMI_MST" -> exists n, cover_name r n) ->
  cost_cover_table d e rows = Throw UnboundLocalErrorPy.
Proof. exact cost_cover_other. Qed.
Print Assumptions C65_other_experiments_refuted.

(** C65: one row whose two fields are both true or empty (a row of a heuristic) stops the table. *)
Theorem C65_empty_field : forall d e rows r, In r rows -> t_cost_function r <> "SEMI_MST" ->
  (t_disjoint r = None \/ t_disjoint r = Some true) -> (t_shortest r = None \/ t_shortest r = Some true) ->
  cost_cover_table d e rows = Throw ValueErrorPy.
Proof.
  intros d e rows r I C D S. apply (cover_empty_field d e rows r I C).
  - destruct D as [-> | ->]; reflexivity.
  - destruct S as [-> | ->]; reflexivity.
Qed.
Print Assumptions C65_empty_field.

(** C65: every run of a heuristic, the first if it was repeated, is a row, with the lower bound of the first run of branch and
    cut with disjoint-paths cuts on the same instance. *)
Theorem C65_heuristics_bounds : forall d heur exact, (forall e, In e exact -> e_disjoint e <> None) ->
  (forall h p, In h heur -> h_objective h <> Inf p) ->
  exists runs rows, get_heuristics_df d heur exact = Ok rows /\ firsts (same_run d) [] heur runs /\
    Forall2 (fun h j => bound_of d exact h (j_lower j) /\ joined_ok h j) runs rows.
Proof. exact heuristics_df_ok. Qed.
Print Assumptions C65_heuristics_bounds.

(** C65: if the lower bounds are valid, a heuristic that is called optimal is. *)
Theorem C65_heuristic_optimal : forall d heur exact rows j (cost_of : exact_row -> Q -> Prop),
  (forall e, In e exact -> e_disjoint e <> None) -> (forall h p, In h heur -> h_objective h <> Inf p) ->
  (forall e z, In e exact -> cost_of e z -> (e_lower e <= z)%Q) ->
  get_heuristics_df d heur exact = Ok rows -> In j rows -> j_optimal j = true ->
  In (j_heur j) heur /\ exists e c, In e exact /\ same_instance d (j_heur j) e /\ h_objective (j_heur j) = Fin c /\
    forall z, cost_of e z -> (c <= z)%Q.
Proof. exact heuristic_optimal. Qed.
Print Assumptions C65_heuristic_optimal.

(** C65: but not the converse: one that finds a tour of cost 0, with a bound of 0, is not called optimal. *)
Theorem C65_heuristic_optimal_refuted : exists h e rows, same_instance Tspwplib h e /\ e_disjoint e = Some true /\
  h_objective h = Fin 0 /\ (e_lower e == 0)%Q /\ get_heuristics_df Tspwplib [h] [e] = Ok rows /\ map j_optimal rows = [false].
Proof. exact optimal_missed. Qed.
Print Assumptions C65_heuristic_optimal_refuted.

(** C65: the lines of the table of heuristics. *)
Theorem C65_heuristics_lines : forall d e only rows, (forall j, In j rows -> exists s, In (h_algorithm (j_heur j), s) names) ->
  exists sub groups t, heuristics_lines d e only rows = Ok t /\ selected (heur_kept d only) rows sub /\
    grouped eq (heur_group_of d e) sub groups /\
    Forall2 (fun g c => fst (fst (fst g)) = fst (fst (fst c)) /\ snd (fst (fst g)) = snd (fst (fst c)) /\
      In (snd (fst g), snd (fst c)) names /\ heur_line_ok (snd g) (snd c)) groups t.
Proof. exact heuristics_lines_ok. Qed.
Print Assumptions C65_heuristics_lines.

(** C65: from the results of any experiment and of a cost cover experiment to the table of heuristics. *)
Theorem C65_heuristics_experiment : forall F uuid d e vs e' ws EF EF',
  experiment_vials F uuid d e' = Ok ws -> e' = CostCover \/ e' = CcLondonaqAlpha ->
  proper_files EF vs -> with_result EF vs <> [] -> proper_files EF' ws -> with_result EF' ws <> [] ->
  (exists v s, In v ws /\ ef_stats EF' (fv_uuid v) = SFile s) -> forall only,
  exists f f' runs rows t, heuristics_csv EF = Ok f /\ branch_cut_csv EF' = Ok f' /\
    mapM read_heur_row (f_rows f) = Ok (map heur_vial_row (with_result EF vs)) /\
    mapM read_exact_row (f_rows f') = Ok (map exact_vial_row (with_stats EF' ws)) /\
    get_heuristics_df d (map heur_vial_row (with_result EF vs)) (map exact_vial_row (with_stats EF' ws)) = Ok rows /\
    firsts (same_run d) [] (map heur_vial_row (with_result EF vs)) runs /\
    Forall2 (fun h j => bound_of d (map exact_vial_row (with_stats EF' ws)) h (j_lower j) /\ joined_ok h j) runs rows /\
    heuristics_lines d e only rows = Ok t.
Proof. exact heuristics_experiment. Qed.
Print Assumptions C65_heuristics_experiment.

(** C65: a row is read exactly if every column is there with its type; otherwise a missing column is a KeyError and a value of
    another type a TypeError. *)
Theorem C65_columns : forall r,
  ((exists t, read_row r = Ok t) <-> forall c, In c columns -> col_ok r c) /\
  (forall c, In c columns -> col_missing r c -> (forall c', In c' columns -> col_missing r c' \/ col_ok r c') ->
     read_row r = Throw KeyErrorPy) /\
  (forall c, In c columns -> col_wrong r c -> (forall c', In c' columns -> ~ col_missing r c') -> read_row r = Throw TypeErrorPy).
Proof. intros r. split; [apply read_row_ok|]. split; [apply read_row_missing|apply read_row_wrong]. Qed.
Print Assumptions C65_columns.

(** An objective may be a whole or a broken number or missing; all else of the row is read as before. *)
Theorem C65_objective : forall r x r' c n, read_heur_row r = Ok x -> (forall name, name <> "objective" -> rget r' name = rget r name) ->
  rget r' "objective" = Some c ->
  (exists z, c = CInt z /\ n = Fin (inject_Z z)) \/ (exists q, c = CNum q /\ n = Fin q) \/ ((c = CNaN \/ c = CNone) /\ n = NaN) ->
  read_heur_row r' = Ok (mkHeur (h_dataset x) (h_graph x) (h_quota x) (h_root x) (h_generation x) (h_kappa x) (h_cost_function x) (h_alpha x)
    (h_algorithm x) (h_depth x) (h_step x) (h_collapse x) n (h_feasible x) (h_duration x)).
Proof.
  intros r x r' c n E S O H. apply (objective_read r x r' c n E S O).
  destruct H as [(z & -> & ->)|[(q & -> & ->)|([-> | ->] & ->)]]; reflexivity.
Qed.
Print Assumptions C65_objective.

(** C65: an algorithm without a short name stops the table of heuristics. *)
Theorem C65_unknown_algorithm : forall d e only rows j k, In j rows -> heur_kept d only j -> heur_group_of d e j = Some k ->
  (forall s, ~ In (h_algorithm (j_heur j), s) names) -> heuristics_lines d e only rows = Throw KeyErrorPy.
Proof. exact lines_unknown. Qed.
Print Assumptions C65_unknown_algorithm.

(** C65: and so does a row of branch and cut without the field of the disjoint-paths cuts. *)
Theorem C65_heuristics_empty_field : forall d heur exact e, In e exact -> e_disjoint e = None ->
  get_heuristics_df d heur exact = Throw ValueErrorPy.
Proof. exact heuristics_empty_field. Qed.
Print Assumptions C65_heuristics_empty_field.

(** C65: a solution of cost 0 that the solver proved to be optimal is not counted as optimal. *)
Theorem C65_count_refuted : exists r t, solved_with_cost r 0 /\ cost_cover_table Tspwplib CostCover [r] = Ok t /\
  map (fun x => cl_optimal (snd x)) t = [0] /\ map (fun x => tl_optimal (snd x)) (tailing_off_table [r]) = [0].
Proof. exact zero_not_counted. Qed.
Print Assumptions C65_count_refuted.

(** C65: the table of tailing off, which does not look at the status, counts an instance that was proved to have no solution
    as solved to optimality. *)
Theorem C65_infeasible_refuted : exists r, t_status r = status_infeasible /\ t_feasible r = false /\
  map (fun x => (tl_optimal (snd x), tl_feasible (snd x))) (tailing_off_table [r]) = [(1, 0)].
Proof. exact infeasible_counted. Qed.
Print Assumptions C65_infeasible_refuted.

(** C65: in that table the bound 10^20 of a run that found no solution enters the mean gap; in the other it does not. *)
Theorem C65_unknown_bound_refuted : exists r1 r2 q, has_bounds r1 /\ ~ has_bounds r2 /\ (t_upper r1 == t_lower r1)%Q /\
  map (fun x => tl_gap (snd x)) (tailing_off_table [r1; r2]) = [Fin q] /\ (1000000000000000000 # 1 < q)%Q /\
  exists t, cost_cover_table Tspwplib CostCover [r1; r2] = Ok t /\ exists q', map (fun x => cl_gap (snd x)) t = [Fin q'] /\ (q' == 0)%Q.
Proof. exact unknown_in_mean. Qed.
Print Assumptions C65_unknown_bound_refuted.

(** ** Cases *)

(** Five rows: one solved, one with a gap of one half, one infeasible, one without solution, one of SEMI_MST. *)
(** The number that stands for no bound is 10^20, SCIP's infinity. *)
Example C65_no_bound : (big_number == (10 # 1) ^ 20)%Q.
Proof. vm_compute. reflexivity. Qed.
Example C65_case : cost_cover_table Tspwplib CostCover rows5 =
    Ok [(("MST", 5%Z, CcDisjoint), mkCc (Fin (120 # 3)) (Fin (30 # 3)) (Fin (25 # 2)) (Fin (50 # 200)) 1 2 (Fin (63 # 9)));
        (("MST", 5%Z, CcNone), mkCc (Fin (40 # 1)) NaN NaN NaN 0 0 (Fin (7 # 1)))] /\
  (forall r, In r rows5 -> t_cost_function r <> "SEMI_MST" -> exists n, cover_name r n) /\
  cost_cover_table Tspwplib Baseline rows5 = Throw UnboundLocalErrorPy.
Proof. exact rows5_cover. Qed.

Example C65_case_tailing : tailing_off_table (firstn 2 rows5) =
  [((1, 2, 1 # 1000, 5)%Z, mkTailing (Fin (80 # 2)) (Fin (50 # 200)) 1 2 (Fin (4 # 2)) (Fin (176 # 32)))].
Proof. exact rows5_tailing. Qed.

(** A repeated run, a gap, an infeasible run and a run without bound. *)
Example C65_case_heuristics : (forall e, In e exacts -> e_disjoint e <> None) /\ (forall h p, In h heurs -> h_objective h <> Inf p) /\
  map (fun j => (h_graph (j_heur j), j_lower j, j_gap j, j_optimal j)) (the_rows (get_heuristics_df Tspwplib heurs exacts)) =
    [("st70", Fin (12 # 1), Fin (0 # 12), true); ("rat195", Fin (10 # 1), Fin (5 # 10), false);
     ("a280", Fin (10 # 1), NaN, false); ("eil51", NaN, NaN, false)] /\
  (forall j, In j (the_rows (get_heuristics_df Tspwplib heurs exacts)) -> exists s, In (h_algorithm (j_heur j), s) names) /\
  heuristics_lines Tspwplib CompareHeuristics false (the_rows (get_heuristics_df Tspwplib heurs exacts)) =
    Ok [(("MST", 5%Z, "SBL"), mkHeurLine 1 2 (Fin (60 # 240)) (Fin (60 # 3)));
        (("MST", 5%Z, "BFS-EC"), mkHeurLine 0 1 NaN (Fin (20 # 1)))].
Proof. exact heurs_case. Qed.

(** A whole experiment that meets the hypotheses of the theorems about experiments. *)
Example C65_case_experiment : exists vs EF, experiment_vials laq_files (fun i => i) Londonaq CostCover = Ok vs /\
  (forall n, laq_cost laq_files n <> "SEMI_MST") /\ proper_files EF vs /\ with_result EF vs <> [] /\
  (exists v r s, In v vs /\ ef_result EF (fv_uuid v) = RFile r /\ ef_stats EF (fv_uuid v) = SFile s) /\ List.length vs = 60.
Proof. exact experiment_case. Qed.

(** Two rows with the lower bound 0 and one with a gap of one half: the mean gap is infinite. *)
Example C65_case_infinite :
  map (fun x => tl_gap (snd x)) (tailing_off_table rows0) = [Inf true] /\
  map (fun x => cl_gap (snd x)) (the_rows (cost_cover_table Tspwplib CostCover rows0)) = [Inf true].
Proof. vm_compute. split; reflexivity. Qed.

(** A row with all columns; without the last; with a word for the quota. *)
Example C65_case_columns : (forall c, In c columns -> col_ok good_row c) /\
  read_row (removelast good_row) = Throw KeyErrorPy /\
  read_row (rset good_row "quota" (CStr "ten")) = Throw TypeErrorPy.
Proof.
  split; [|split; reflexivity]. intros c I. unfold columns in I. cbn [In] in I.
  repeat (destruct I as [<-|I]; [eexists; split; [reflexivity|cbn; eauto 8]|]). destruct I.
Qed.

Example C65_case_unknown : heur_kept Tspwplib false unknown_run /\ heur_group_of Tspwplib CompareHeuristics unknown_run = Some ("MST", 5%Z, "random") /\
  (forall s, ~ In ("random", s) names) /\
  heuristics_lines Tspwplib CompareHeuristics false [unknown_run] = Throw KeyErrorPy /\
  get_heuristics_df Tspwplib heurs [mkExact "tspwplib" "st70" 10 1 None None "MST" None (1 # 1) (1 # 1)] = Throw ValueErrorPy.
Proof.
  split; [split; [split; discriminate|split; [discriminate|auto]]|]. split; [reflexivity|].
  split; [intros s; unfold names; cbn [In]; intuition discriminate|]. split; reflexivity.
Qed.
