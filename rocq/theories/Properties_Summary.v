(** * Properties_Summary: the statistics of the data sets, their tables, and the command for all tables *)
From Coq Require Import String QArith Sorting.
From Verif Require Import Base M_Python M_PyWrap M_RunAlg M_Compare M_Stats M_Dataset M_Csv M_Tables M_Labels M_Summary
  Spec_Lab Spec_Tables Spec_Labels Spec_Summary P_TablesCase P_Summary P_SummaryCase.
Open Scope nat_scope.
Open Scope string_scope.

(** C68: the csv file of a data set is written exactly if every instance has statistics, and otherwise no file is touched. *)
Theorem C68_statistics : forall S d fs,
  ((exists rows, snd (stats_command S d fs) = Ok rows) <-> all_measured S d) /\
  (~ all_measured S d -> fst (stats_command S d fs) = fs) /\
  (forall rows, snd (stats_command S d fs) = Ok rows -> forall d', fst (stats_command S d fs) d' =
     if match d, d' with Londonaq, Londonaq | Tspwplib, Tspwplib => true | _, _ => false end then Some rows else fs d').
Proof. exact stats_command_ok. Qed.
Print Assumptions C68_statistics.

(** C68: the rows and columns of the csv file of londonaq, in order. *)
Theorem C68_londonaq_rows : forall S rows, stats_of_dataset S Londonaq = Ok rows ->
  Forall2 (fun name r => exists x, londonaq_measured S name x /\ csv_row [("graph_name", CStr name)] x r) londonaq_graphs rows.
Proof. exact londonaq_csv. Qed.
Print Assumptions C68_londonaq_rows.

(** C68: the rows and columns of the csv file of tspwplib, in order. *)
Theorem C68_tspwplib_rows : forall S rows, stats_of_dataset S Tspwplib = Ok rows ->
  Forall2 (fun key r => let '(name, gen, cost, kappa) := key in exists x, tspwplib_measured S name gen cost kappa x /\
      csv_row [("graph_name", CStr name); ("generation", CStr gen); ("cost_function", CStr cost); ("kappa", CInt kappa)] x r)
    (list_prod (list_prod (list_prod tspwplib_graphs (src_generations S)) the_costs) the_kappas) rows.
Proof. exact tspwplib_csv. Qed.
Print Assumptions C68_tspwplib_rows.

(** C68: the table of heuristics does not stop the others if the algorithms of its rows are known, and does so if one of the kept
    rows has an unknown algorithm. *)
Theorem C68_heuristics : forall E d h c heur exact rows, te_csv E d CompareHeuristics = Some h -> te_csv E d CostCover = Some c ->
  mapM read_heur_row h = Ok heur -> mapM read_exact_row c = Ok exact -> get_heuristics_df d heur exact = Ok rows ->
  ((forall j, In j rows -> exists s, In (h_algorithm (j_heur j), s) names) -> heuristics_result E d = Ok tt) /\
  (forall j k, In j rows -> heur_kept d false j -> heur_group_of d CompareHeuristics j = Some k -> (forall s, ~ In (h_algorithm (j_heur j), s) names) ->
     heuristics_result E d = Throw KeyErrorPy).
Proof. exact heuristics_result_iff. Qed.
Print Assumptions C68_heuristics.

(** C68: londonaq from the files to the table: a row for each graph, and under each label the statistic it names. *)
Theorem C68_londonaq : forall S xs, Forall2 (londonaq_measured S) londonaq_graphs xs ->
  exists rows, stats_of_dataset S Londonaq = Ok rows /\
    dataset_table Londonaq rows = Ok (mkT (Flat (map (fun h => (fst (fst h), map (snd h) xs)) londonaq_heads)) [Some "graph_name"]
      (map (fun n => [VStr n]) londonaq_graphs), FmtL :: map (fun h => snd (fst h)) londonaq_heads).
Proof. exact londonaq_end. Qed.
Print Assumptions C68_londonaq.

(** C68: tspwplib from the files to the table: a row for each kappa, and under each cost function the means of the two ratios
    over all graphs and generations. *)
Theorem C68_tspwplib : forall S x,
  (forall name gen cost kappa, In name tspwplib_graphs -> In gen (src_generations S) -> In cost the_costs ->
     In kappa the_kappas -> tspwplib_measured S name gen cost kappa (x name gen cost kappa)) ->
  src_generations S <> [] ->
  exists rows m hs, stats_of_dataset S Tspwplib = Ok rows /\
  dataset_table Tspwplib rows = Ok (mkT (Multi m) [Some "kappa"] (map (fun k => [VNum (Fin (inject_Z k))]) the_kappas),
    [FmtL; FmtGap; FmtGap; FmtGap; FmtGap]) /\
  headed m hs /\
  Forall2 (fun ch h => fst h = [fst ch; fst (snd ch)] /\
    Forall2 (fun k v => exists q, v = VNum q /\
      is_mean (map (fun ng => snd (snd ch) (fst (fst (x (fst ng) (snd ng) (fst ch) k)))) (list_prod tspwplib_graphs (src_generations S))) q)
      the_kappas (snd h)) (list_prod the_costs ratio_heads) hs.
Proof. exact tspwplib_end. Qed.
Print Assumptions C68_tspwplib.

(** C68: the table of tspwplib from any csv file: the kappas and cost functions that occur together, in order, and the means over
    the rows that have both. *)
Theorem C68_tspwplib_csv : forall rows (rs : list rtuple),
  Forall2 (fun r (t : rtuple) => let '(c, k, d, p) := t in ratio_read r c k d p) rows rs ->
  exists m kappas costs hs, dataset_table Tspwplib rows = Ok (mkT (Multi m) [Some "kappa"] (map (fun k => [VNum (Fin (inject_Z k))]) kappas),
      [FmtL; FmtGap; FmtGap; FmtGap; FmtGap]) /\
    StronglySorted Z.lt kappas /\
    (forall k, In k kappas <-> exists r c, In r rs /\ fst (fst r) = (Some c, Some k)) /\
    NoDup costs /\ StronglySorted (fun a b => String.leb a b = true) costs /\
    (forall c, In c costs <-> exists r k, In r rs /\ fst (fst r) = (Some c, Some k)) /\
    headed m hs /\
    Forall2 (fun ch h => fst h = [make_column_name_pretty (fst ch); fst (snd ch)] /\
      Forall2 (ratio_cell rs (snd (snd ch)) (fst ch)) kappas (snd h)) (list_prod costs ratio_labels) hs.
Proof. exact tspwplib_table_ok. Qed.
Print Assumptions C68_tspwplib_csv.

(** C68: if the directory is there and every csv file that exists makes a table, the command ends well, whatever files are
    missing; every table that is due is written and no other file is touched. *)
Theorem C68_all : forall E st, files_good E -> ts_dir st = true ->
  exists st', generate_all_tables E st = (st', Ok tt) /\ ts_dir st' = true /\ as_due E (fun _ => False) (ts_files st) (ts_files st').
Proof. exact generate_ok. Qed.
Print Assumptions C68_all.

(** C68: if the directory is not there but can be made, what happens depends on the csv file of londonaq, whose table is the
    first and does not make the directory: without it all is well, with it that table is not written or nothing is. *)
Theorem C68_all_new_directory : forall E st, files_good E -> ts_dir st = false -> te_parent E = true ->
  (te_dataset E Londonaq = None -> exists st', generate_all_tables E st = (st', Ok tt) /\ ts_dir st' = true /\
     as_due E (fun _ => False) (ts_files st) (ts_files st')) /\
  (te_dataset E Londonaq <> None -> te_no_dir E = FileNotFoundErrorPy ->
     exists st', generate_all_tables E st = (st', Ok tt) /\ ts_dir st' = true /\
     as_due E (fun n => n = "londonaq_dataset.tex") (ts_files st) (ts_files st')) /\
  (te_dataset E Londonaq <> None -> te_no_dir E <> FileNotFoundErrorPy -> generate_all_tables E st = (st, Throw (te_no_dir E))).
Proof. exact generate_new. Qed.
Print Assumptions C68_all_new_directory.

(** C68: and if it cannot be made, the command ends well without any table. *)
Theorem C68_all_nowhere : forall E st, files_good E -> ts_dir st = false -> te_parent E = false ->
  te_no_dir E = FileNotFoundErrorPy \/ (forall d, te_dataset E d = None) -> generate_all_tables E st = (st, Ok tt).
Proof. exact generate_nowhere. Qed.
Print Assumptions C68_all_nowhere.

(** C68: a csv file of londonaq that cannot be made into the table of cost cover ends the command: no table after it is written,
    also none of tspwplib. *)
Theorem C68_all_stops : forall E st e, ts_dir st = true -> cost_cover_doc E Londonaq = Throw e -> e <> FileNotFoundErrorPy ->
  (forall rows, te_dataset E Londonaq = Some rows -> exists t, dataset_table Londonaq rows = Ok t) ->
  exists st', generate_all_tables E st = (st', Throw e) /\
    forall name, name <> "londonaq_dataset.tex" -> ts_files st' name = ts_files st name.
Proof. exact generate_stops. Qed.
Print Assumptions C68_all_stops.

(** C68: it is not so that the command writes every table that is due whenever it ends well: the directory is made, but not for
    the first table. *)
Theorem C68_all_refuted : exists E st st' doc, files_good E /\ te_parent E = true /\ generate_all_tables E st = (st', Ok tt) /\
  due E "londonaq_dataset.tex" doc /\ ts_files st' "londonaq_dataset.tex" = None /\ ts_files st' "tspwplib_cost_cover.tex" <> None.
Proof. exact first_lost. Qed.
Print Assumptions C68_all_refuted.

(** ** Cases *)
Example C68_case_londonaq : Forall2 (londonaq_measured sources1) londonaq_graphs [stat1 1 0; stat1 2 0; stat1 2 0; stat1 2 0] /\
  exists rows f, stats_of_dataset sources1 Londonaq = Ok rows /\ dataset_table Londonaq rows = Ok f /\
    exists l ns ix fm, f = (mkT (Flat l) ns ix, fm) /\ nth_error l 0 = Some ("$|V(G)|$", [whole 1; whole 2; whole 2; whole 2]).
Proof. exact londonaq_case. Qed.

Example C68_case_tspwplib : (forall name gen cost kappa, In name tspwplib_graphs -> In gen (src_generations sources1) -> In cost the_costs ->
     In kappa the_kappas -> tspwplib_measured sources1 name gen cost kappa (stat1 (if String.eqb name "eil51" then 1 else 2)
       (Z.to_nat kappa + if String.eqb cost "MST" then 1 else 0))) /\
  exists rows m ns ix fm, stats_of_dataset sources1 Tspwplib = Ok rows /\ List.length rows = 180 /\
    dataset_table Tspwplib rows = Ok (mkT (Multi m) ns ix, fm) /\ List.length (m_cols m) = 4.
Proof. exact tspwplib_case. Qed.

(** A graph without depot. *)
Example C68_case_statistics : ~ all_measured sources2 Londonaq /\ all_measured sources1 Londonaq /\
  stats_command sources2 Londonaq (fun _ => None) = (fun _ => None, Throw IndexErrorPy).
Proof. exact statistics_case. Qed.

(** Only tspwplib has csv files of experiments; the file of londonaq is its statistics. *)
Example C68_case_all : files_good (env1 FileNotFoundErrorPy true) /\
  (exists doc, due (env1 FileNotFoundErrorPy true) "tspwplib_cost_cover.tex" doc) /\
  (forall doc, ~ due (env1 FileNotFoundErrorPy true) "londonaq_cost_cover.tex" doc).
Proof. exact all_case. Qed.

(** Both exceptions that pandas may raise, and no directory above. *)
Example C68_case_new_directory : generate_all_tables (env1 OSErrorPy true) (mkTs false (fun _ => None)) = (mkTs false (fun _ => None), Throw OSErrorPy) /\
  generate_all_tables (env1 FileNotFoundErrorPy false) (mkTs false (fun _ => None)) = (mkTs false (fun _ => None), Ok tt).
Proof. exact directory_case. Qed.

(** A row of londonaq with both kinds of cuts. *)
Example C68_case_stops : cost_cover_doc env2 Londonaq = Throw ValueErrorPy /\
  (exists doc, due env2 "tspwplib_cost_cover.tex" doc) /\
  snd (generate_all_tables env2 (mkTs true (fun _ => None))) = Throw ValueErrorPy /\
  ts_files (fst (generate_all_tables env2 (mkTs true (fun _ => None)))) "tspwplib_cost_cover.tex" = None.
Proof. exact stops_case. Qed.

(** Rows without cost function or without ratio. *)
Example C68_case_csv : Forall2 (fun r (t : rtuple) => let '(c, k, d, p) := t in ratio_read r c k d p) csv1
    [(Some "MST", Some 5%Z, Some (1 # 2), Some 1%Q); (None, Some 7%Z, Some (1 # 3), Some 1%Q); (Some "MST", Some 5%Z, None, Some (1 # 2));
     (Some "EUC_2D", Some 10%Z, Some (1 # 4), Some 1%Q)] /\
  exists m hs, dataset_table Tspwplib csv1 = Ok (mkT (Multi m) [Some "kappa"] [[VNum (Fin 5)]; [VNum (Fin 10)]], [FmtL; FmtGap; FmtGap; FmtGap; FmtGap]) /\
    headed m hs /\ map snd hs = [[VNum NaN; VNum (Fin (1 # 4))]; [VNum NaN; VNum (Fin 1)]; [VNum (Fin (1 # 2)); VNum NaN]; [VNum (Fin (3 # 4)); VNum NaN]].
Proof. exact csv_case. Qed.

(** A run of a heuristic and one of branch and cut; the first with any algorithm. *)
Definition heur_csv_row (algorithm : string) : row :=
  [("dataset", CStr "tspwplib"); ("graph_name", CStr "st70"); ("quota", CInt 10); ("root", CInt 1); ("generation", CStr "gen1");
   ("kappa", CInt 5); ("cost_function", CStr "MST"); ("alpha", CNaN); ("algorithm", CStr algorithm); ("path_depth_limit", CNaN);
   ("step_size", CNaN); ("collapse_paths", CNaN); ("objective", CInt 12); ("feasible", CBool true); ("duration", CTime 7)].
Definition exact_csv_row : row :=
  [("dataset", CStr "tspwplib"); ("graph_name", CStr "st70"); ("quota", CInt 10); ("root", CInt 1); ("generation", CStr "gen1");
   ("kappa", CInt 5); ("cost_function", CStr "MST"); ("cost_cover_disjoint_paths", CBool true); ("lower_bound", CNum 10); ("upper_bound", CNum 10)].
Definition heur_env (algorithm : string) : tables_env := mkTenv (fun _ => None)
  (fun d x => match d, x with Tspwplib, CompareHeuristics => Some [heur_csv_row algorithm] | Tspwplib, CostCover => Some [exact_csv_row] | _, _ => None end)
  true FileNotFoundErrorPy.
Example C68_heuristics_case : exists heur exact rows, mapM read_heur_row [heur_csv_row "random"] = Ok heur /\ mapM read_exact_row [exact_csv_row] = Ok exact /\
  get_heuristics_df Tspwplib heur exact = Ok rows /\
  (exists j k, In j rows /\ heur_kept Tspwplib false j /\ heur_group_of Tspwplib CompareHeuristics j = Some k /\ forall s, ~ In (h_algorithm (j_heur j), s) names) /\
  heuristics_result (heur_env "random") Tspwplib = Throw KeyErrorPy /\ heuristics_result (heur_env "bfs_extension_collapse") Tspwplib = Ok tt.
Proof.
  eexists _, _, _. split; [vm_compute; reflexivity|]. split; [vm_compute; reflexivity|]. split; [vm_compute; reflexivity|]. split.
  - eexists _, _. split; [left; reflexivity|]. split; [split; [split; discriminate|split; [discriminate|intros _; right; reflexivity]]|].
    split; [reflexivity|]. intros s. unfold names. cbn. intuition discriminate.
  - split; vm_compute; reflexivity.
Qed.
Example C68_rows_case : exists r rows, stats_of_dataset sources1 Londonaq = Ok (r :: rows) /\
  rget r "graph_name" = Some (CStr "laqbbA") /\ rget r "preprocessed_total_cost" <> None /\ List.length r = 15.
Proof. eexists _, _. split; [vm_compute; reflexivity|]. split; [reflexivity|]. split; [discriminate|reflexivity]. Qed.
