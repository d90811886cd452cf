(** * M_Summary: the statistics and the table of a data set, and the command for all tables: pctsp/apps/dataset_app.py:42-112,
    pctsp/apps/tables_app.py:93-145,547-583. Logging and printing are left out. *)
From Coq Require Import String QArith.
From Verif Require Import Base M_Python M_PyWrap M_RunAlg M_Compare M_Stats M_Dataset M_Csv M_Tables M_Labels.
Open Scope nat_scope.
Open Scope string_scope.

(** *** The statistics of a data set *)

(** What is read and calculated elsewhere. [src_londonaq] and [src_oplib]: the graph of a file, with costs and prizes, and its
    depots (dataset_app.py:57-61,81-91; tspwplib). [src_sparsify] and [src_mst]: sparsify_uid and the graph with mst_cost
    (dataset_app.py:92-95; tspwplib). [src_stats]: get_graph_stats (dataset_app.py:115-178, M_Dataset), with the two values of
    metricness (128-134,176; tspwplib). *)
Record sources := mkSources {
  src_londonaq : string -> res (pygraph * list nat);
  src_oplib : string -> string -> res (pygraph * list nat);
  src_generations : list string;
  src_sparsify : pygraph -> option Z -> res pygraph;
  src_mst : pygraph -> res pygraph;
  src_stats : pygraph -> nat -> res (instance_stats * Q * Q) }.

(** [tsp.depots[0]] (dataset_app.py:63,97; Python). *)
Definition first_depot (depots : list nat) : res nat := match depots with [] => Throw IndexErrorPy | x :: _ => Ok x end.

(** A quotient as a number (dataset_app.py:160,177), without rounding. *)
Definition quotient (ab : Z * Z) : Q := inject_Z (fst ab) / inject_Z (snd ab).

(** The dictionary of get_graph_stats in order of insertion, dataset_app.py:119-178. *)
Definition stats_dict (x : instance_stats * Q * Q) : row :=
  let '(s, metric, pre_metric) := x in
  [("num_nodes", CInt (Z.of_nat (num_nodes s))); ("num_edges", CInt (Z.of_nat (num_edges s)));
   ("total_cost", CInt (total_cost_stat s)); ("total_prize", CInt (total_prize_stat s)); ("metricness", CNum metric);
   ("biggest_disjoint_prize", CInt (biggest_disjoint_prize s)); ("disjoint_prize_ratio", CNum (quotient (disjoint_prize_ratio s)));
   ("max_disjoint_paths_cost", CInt (max_disjoint_paths_cost s));
   ("preprocessed_num_nodes", CInt (Z.of_nat (pre_num_nodes s))); ("preprocessed_num_edges", CInt (Z.of_nat (pre_num_edges s)));
   ("preprocessed_total_cost", CInt (pre_total_cost s)); ("preprocessed_total_prize", CInt (pre_total_prize s));
   ("preprocessed_metricness", CNum pre_metric); ("preprocessed_prize_ratio", CNum (quotient (pre_prize_ratio s)))].

(** One round of the loop for londonaq, dataset_app.py:55-64. *)
Definition londonaq_instance (S : sources) (name : string) : res row :=
  do '(graph, depots) <- src_londonaq S name;
  do root <- first_depot depots;
  do stats <- src_stats S graph root;
  Ok (("graph_name", CStr name) :: stats_dict stats).

(** One round of the loop for tspwplib, dataset_app.py:68-98. *)
Definition tspwplib_instance (S : sources) (key : string * string * string * option Z) : res row :=
  let '(graph_name, gen, cost, kappa) := key in
  do '(graph, depots) <- src_oplib S gen graph_name;
  do graph <- src_sparsify S graph kappa;
  do graph <- (if String.eqb cost "MST" then src_mst S graph else Ok graph);
  do root <- first_depot depots;
  do stats <- src_stats S graph root;
  Ok (("graph_name", CStr graph_name) :: ("generation", CStr gen) :: ("cost_function", CStr cost) :: ("kappa", copt CInt kappa) ::
      stats_dict stats).

(** [itertools.product] of the four lists, dataset_app.py:68-73. *)
Definition tspwplib_keys (S : sources) : list (string * string * string * option Z) :=
  flat_map (fun name => flat_map (fun gen => flat_map (fun cost => map (fun kappa => (name, gen, cost, kappa))
    tsplib_kappa_list) tsplib_cost_functions) (src_generations S)) tsplib_graph_name_list.

(** The DataFrame of stats_of_dataset, dataset_app.py:42-102, as the rows of the csv file. *)
Definition stats_of_dataset (S : sources) (d : dataset_name) : res (list row) :=
  match d with
  | Londonaq => mapM (londonaq_instance S) londonaq_graph_name_list
  | Tspwplib => mapM (tspwplib_instance S) (tspwplib_keys S)
  end.

(** The csv files, and the command, dataset_app.py:104-112: the file is written at the end. *)
Definition dataset_files := dataset_name -> option (list row).
(** With the definition above, dataset_app.py:104-112. *)
Definition stats_command (S : sources) (d : dataset_name) (fs : dataset_files) : dataset_files * res (list row) :=
  match stats_of_dataset S d with
  | Ok rows => (fun d' => match d, d' with Londonaq, Londonaq | Tspwplib, Tspwplib => Some rows | _, _ => fs d' end, Ok rows)
  | r => (fs, r)
  end.

(** *** The table of a data set *)

(** columns, tables_app.py:105-114, without graph_name, the index. *)
Definition londonaq_columns : list string :=
  ["num_nodes"; "num_edges"; "preprocessed_num_nodes"; "preprocessed_num_edges"; "preprocessed_prize_ratio"; "metricness";
   "disjoint_prize_ratio"].

(** A value of the csv file (tables_app.py:121; pandas). *)
Definition as_value (x : cell) : option value :=
  match x with
  | CInt z => Some (VNum (nint z)) | CNum q => Some (VNum (Fin q)) | CNaN | CNone => Some (VNum NaN) | CStr s => Some (VStr s)
  | _ => None
  end.

(** [make_column_name_pretty] of a label of the index (tables_app.py:86-90,137-138). *)
Definition pretty_label (v : value) : value := match v with VStr s => VStr (make_column_name_pretty s) | VNum _ => v end.

(** summarize_dataset for londonaq, tables_app.py:102-115,121-123,134-144: labels are formatted, the name of the index is not. *)
Definition londonaq_table (rows : list row) : res (tframe * list fmt) :=
  do names <- mapM (fun r => get_col as_value r "graph_name") rows;
  do cols <- mapM (fun c => do l <- mapM (fun r => get_col as_value r c) rows; Ok (make_column_name_pretty c, l)) londonaq_columns;
  Ok (mkT (Flat cols) [Some "graph_name"] (map (fun n => [pretty_label n]) names), FmtL :: times 4 [FmtSep] ++ times 3 [FmtGap])%list.

(** A row of the csv file that is read for tspwplib (tables_app.py:121,126-129; pandas). *)
Record ratio_row := mkRatio { rr_cost : option string; rr_kappa : option Z; rr_disjoint : num; rr_pre : num }.
(** Reading it; an empty field is NaN (tables_app.py:121; pandas). *)
Definition read_ratio_row (r : row) : res ratio_row :=
  do cf <- get_col (as_opt as_str) r "cost_function";
  do k <- get_col (as_opt as_int) r "kappa";
  do a <- get_col (as_opt as_num) r "disjoint_prize_ratio";
  do b <- get_col (as_opt as_num) r "preprocessed_prize_ratio";
  let n o := match o with Some q => Fin q | None => NaN end in
  Ok (mkRatio cf k (n a) (n b)).

(** The key of groupby, tables_app.py:126. *)
Definition ratio_key (r : ratio_row) : option (string * Z) :=
  match rr_cost r, rr_kappa r with Some c, Some k => Some (c, k) | _, _ => None end.

(** Labels by first occurrence (tables_app.py:130-131; pandas). *)
Definition distinct {A} (eqb : A -> A -> bool) (l : list A) : list A :=
  fold_left (fun seen x => if existsb (eqb x) seen then seen else (seen ++ [x])%list) l [].

(** summarize_dataset for tspwplib, tables_app.py:116-119,121,124-144. *)
Definition tspwplib_table (rows : list row) : res (tframe * list fmt) :=
  do rows <- mapM read_ratio_row rows;
  let groups := map (fun g => (fst g, (mean (map rr_disjoint (snd g)), mean (map rr_pre (snd g))))) (groupby rowkey_eqb ratio_key rows) in
  let costs := distinct String.eqb (map (fun g => fst (fst g)) groups) in
  let kappas := sort_by Z.leb (distinct Z.eqb (map (fun g => snd (fst g)) groups)) in
  let cell metric cost kappa :=
    match find (fun g => rowkey_eqb (cost, kappa) (fst g)) groups with
    | Some g => VNum (if String.eqb metric "mean_disjoint_prize_ratio" then fst (snd g) else snd (snd g))
    | None => VNum NaN
    end in
  let m := sort_index (swaplevel (unstack "cost_function" ["mean_disjoint_prize_ratio"; "mean_preprocessed_prize_ratio"] costs
    (fun metric cost => map (cell metric cost) kappas))) in
  Ok (mkT (Multi (mkMidx (m_names m) (map (map make_column_name_pretty) (m_levels m)) (m_cols m))) [Some "kappa"]
    (map (fun k => [VNum (nint k)]) kappas), FmtL :: times 4 [FmtGap]).

(** The two branches, tables_app.py:102-134. *)
Definition dataset_table (d : dataset_name) (rows : list row) : res (tframe * list fmt) :=
  match d with Londonaq => londonaq_table rows | Tspwplib => tspwplib_table rows end.

(** *** All tables *)

(** The csv files, whether the directory above that of the tables exists, and the exception that pandas raises if the directory
    of the tables does not (OSError or FileNotFoundError, depending on its version; tables_app.py:137-144). The directories that
    the lab makes are left out; if they cannot be made the csv file does not exist either, with the same exception. *)
Record tables_env := mkTenv {
  te_dataset : dataset_files; te_csv : dataset_name -> experiment_name -> option (list row); te_parent : bool; te_no_dir : exn }.

(** A file: the DataFrame and the format of its columns, which the table of tailing off leaves to pandas (tables_app.py:269). *)
Definition document := (tframe * option (list fmt))%type.
(** Whether the directory of the tables exists, and the files in it (tables_app.py:136-144,266-270,377-397). *)
Record tables_state := mkTs { ts_dir : bool; ts_files : string -> option document }.

(** Writing a file (tables_app.py:137-145,270,397). *)
Definition write_doc (st : tables_state) (name : string) (doc : document) : tables_state :=
  mkTs (ts_dir st) (fun n => if String.eqb n name then Some doc else ts_files st n).

(** tables_path, tables_app.py:104,118. *)
Definition dataset_doc_name (d : dataset_name) : string :=
  match d with Londonaq => "londonaq_dataset.tex" | Tspwplib => "tsplib_dataset.tex" end.
(** table_tex_filepath, tables_app.py:268,380. *)
Definition doc_name (d : dataset_name) (e : string) : string := dataset_value d ++ "_" ++ e ++ ".tex".

(** [open(path)] of a csv file (tables_app.py:121,238,288,409,418; pandas). *)
Definition open_csv (o : option (list row)) : res (list row) := match o with Some rows => Ok rows | None => Throw FileNotFoundErrorPy end.

(** [tables_dir.mkdir(exist_ok=True, parents=False)] (tables_app.py:231,280; Python). *)
Definition mkdir (E : tables_env) (st : tables_state) : tables_state * res unit :=
  if ts_dir st then (st, Ok tt)
  else if te_parent E then (mkTs true (ts_files st), Ok tt) else (st, Throw FileNotFoundErrorPy).

(** summarize_dataset, tables_app.py:93-145. *)
Definition dataset_step (E : tables_env) (d : dataset_name) (st : tables_state) : tables_state * res unit :=
  match (do rows <- open_csv (te_dataset E d); dataset_table d rows) with
  | Ok (t, f) => if ts_dir st then (write_doc st (dataset_doc_name d) (t, Some f), Ok tt) else (st, Throw (te_no_dir E))
  | Throw e => (st, Throw e) | UB u => (st, UB u) | OutOfFuel => (st, OutOfFuel)
  end.

(** cost_cover_table for the experiment cost_cover, tables_app.py:273-397. *)
Definition cost_cover_doc (E : tables_env) (d : dataset_name) : res document :=
  do rows <- open_csv (te_csv E d CostCover);
  do rows <- mapM read_row rows;
  do t <- cost_cover_table d CostCover rows;
  do '(t, f) <- cost_cover_latex d CostCover t;
  Ok (t, Some f).
(** tailing_off_table, tables_app.py:225-270. *)
Definition tailing_off_doc (E : tables_env) (d : dataset_name) : res document :=
  do rows <- open_csv (te_csv E d TailingOff);
  do rows <- mapM read_row rows;
  do t <- tailing_off_latex (tailing_off_table rows);
  Ok (t, None).
(** Making the directory, the table and the file (tables_app.py:231,270,281,397). *)
Definition doc_step (E : tables_env) (name : string) (doc : res document) (st : tables_state) : tables_state * res unit :=
  match mkdir E st with
  | (st, Ok _) =>
      match doc with
      | Ok doc => (write_doc st name doc, Ok tt)
      | Throw e => (st, Throw e) | UB u => (st, UB u) | OutOfFuel => (st, OutOfFuel)
      end
  | (st, r) => (st, r)
  end.

(** heuristics_table for the experiment compare_heuristics, tables_app.py:400-545: nothing is written (544). *)
Definition heuristics_result (E : tables_env) (d : dataset_name) : res unit :=
  do heur <- open_csv (te_csv E d CompareHeuristics);
  do exact <- open_csv (te_csv E d CostCover);
  do heur <- mapM read_heur_row heur;
  do exact <- mapM read_exact_row exact;
  do rows <- get_heuristics_df d heur exact;
  do _ <- heuristics_lines d CompareHeuristics false rows;
  Ok tt.

(** The four steps for a data set, tables_app.py:556-583. *)
Definition table_steps (E : tables_env) (d : dataset_name) : list (tables_state -> tables_state * res unit) :=
  [dataset_step E d; doc_step E (doc_name d "cost_cover") (cost_cover_doc E d); (fun st => (st, heuristics_result E d));
   doc_step E (doc_name d "tailing_off") (tailing_off_doc E d)].

(** [try: step except FileNotFoundError: warn] (tables_app.py:557-583; Python). *)
Definition attempt (r : res unit) : res unit := match r with Throw FileNotFoundErrorPy => Ok tt | r => r end.

(** The steps one after the other (tables_app.py:556-583; Python). *)
Fixpoint run_steps (steps : list (tables_state -> tables_state * res unit)) (st : tables_state) : tables_state * res unit :=
  match steps with
  | [] => (st, Ok tt)
  | step :: rest =>
      let '(st, r) := step st in
      match attempt r with Ok _ => run_steps rest st | r => (st, r) end
  end.

(** generate_all_tables, tables_app.py:547-583. *)
Definition generate_all_tables (E : tables_env) (st : tables_state) : tables_state * res unit :=
  run_steps (flat_map (table_steps E) [Londonaq; Tspwplib]) st.
