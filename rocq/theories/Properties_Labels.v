(** * Properties_Labels: the labels of the tables name what is beneath them *)
From Coq Require Import String QArith.
From Verif Require Import Base M_PyWrap M_RunAlg M_Compare M_Csv M_Tables M_Labels Spec_Labels P_Labels.
Open Scope nat_scope.
Open Scope string_scope.

(** Different columns have different labels. *)
Theorem C67_distinct : forall s s' t t', called pretty_names s t -> called pretty_names s' t' -> s <> s' ->
  (forall k, ~ In (k, s) pretty_names) -> (forall k, ~ In (k, s') pretty_names) -> t <> t'.
Proof. exact pretty_distinct. Qed.
Print Assumptions C67_distinct.

(** What make_column_name_pretty says, against the list of labels. *)
Theorem C67_labels : forall s t, called labels s t <-> make_column_name_pretty s = t.
Proof. exact labels_ok. Qed.
Print Assumptions C67_labels.

(** A table with one line of headings, of which none is branching_strategy: every column has its label above it, algorithms
    and cost functions have their names, and so have the labels of the rows; other values are not touched. *)
Theorem C67_flat : forall long l names index, rows_fit names index -> ~ In "branching_strategy" (map fst l) ->
  exists l' names' index', pretty_dataframe long (mkT (Flat l) names index) = Ok (mkT (Flat l') names' index') /\
    Forall2 (column_ok long) l l' /\ Forall2 name_ok names names' /\ Forall2 (row_ok long names) index index'.
Proof. exact flat_ok. Qed.
Print Assumptions C67_flat.

(** A table with several lines of headings: the labels are right exactly if the code of every column in every level is also the
    number of a column of that name. *)
Theorem C67_multi : forall long m hs names index, rows_fit names index -> headed m hs ->
  (forall h, In h hs -> nth_error (fst h) 0 <> Some "branching_strategy") ->
  exists m' names' index', pretty_dataframe long (mkT (Multi m) names index) = Ok (mkT (Multi m') names' index') /\
    m_names m' = m_names m /\
    ((exists hs', headed m' hs' /\ Forall2 (renamed (m_names m)) hs hs') <-> codes_are_columns m hs) /\
    Forall2 name_ok names names' /\ Forall2 (row_ok long names) index index'.
Proof. exact multi_ok. Qed.
Print Assumptions C67_multi.

(** The table of cost cover: one row for every group, four columns for every name that occurs, each beneath the name and the
    label of what it says, and set in the format for it. *)
Theorem C67_cost_cover : forall d e t, e = CostCover \/ e = CcLondonaqAlpha -> t <> [] ->
  exists m index rows names hs fmts, cost_cover_latex d e t = Ok (mkT (Multi m) (cc_index_label d e) index, fmts) /\
    NoDup rows /\ (forall k, In k rows <-> exists n c, In ((k, n), c) t) /\ Forall2 (cc_row_label d) rows index /\
    names_of t names /\ headed m hs /\
    Forall2 (fun nh h => fst h = [cc_head (fst nh); fst (fst (snd nh))] /\
      Forall2 (cell_ok t (fst nh) (snd (snd nh))) rows (snd h)) (list_prod names (cc_heads e)) hs /\
    firstn (List.length (cc_index_label d e) + List.length hs) fmts =
      (repeat FmtL (List.length (cc_index_label d e)) ++ map (fun nh => snd (fst (snd nh))) (list_prod names (cc_heads e)))%list.
Proof. exact cost_cover_latex_ok. Qed.
Print Assumptions C67_cost_cover.

(** The table of tailing off. *)
Theorem C67_tailing_off : forall t, exists index, tailing_off_latex t =
  Ok (mkT (Flat [("$\overline{\text{TIME}}$ (s)", map (fun x => VNum (tl_duration (snd x))) t);
    ("$\overline{\text{GAP}}$", map (fun x => VNum (tl_gap (snd x))) t);
    ("OPT", map (fun x => VNum (Fin (inject_Z (Z.of_nat (tl_optimal (snd x)))))) t);
    ("FEAS", map (fun x => VNum (Fin (inject_Z (Z.of_nat (tl_feasible (snd x)))))) t);
    ("$\mu (NODES)$", map (fun x => VNum (tl_nodes (snd x))) t); ("$\mu (SEC)$", map (fun x => VNum (tl_secs (snd x))) t)])
    [Some "$\Delta$"; Some "Branching strategy"; Some "$\gamma$"; Some "$\tau$"] index) /\
  Forall2 tailing_row_label (map fst t) index.
Proof. exact tailing_latex_ok. Qed.
Print Assumptions C67_tailing_off.

(** If the strategy is a column, the numbers of the other columns are taken for strategies too. *)
Theorem C67_strategy_column_refuted : exists l names index l' names' index', rows_fit names index /\
  pretty_dataframe false (mkT (Flat l) names index) = Ok (mkT (Flat l') names' index') /\
  In ("num_nodes", [VNum (Fin 1)]) l /\ In ("$|V(G)|$", [VStr "Strong branching"]) l' /\ ~ Forall2 (column_ok false) l l'.
Proof.
  exists [("num_nodes", [VNum (Fin 1)]); ("branching_strategy", [VNum (Fin 2)])], [None], [[VNum (Fin 0)]],
    [("$|V(G)|$", [VStr "Strong branching"]); ("Branching strategy", [VStr "Strong at tree top"])], [None], [[VNum (Fin 0)]].
  split; [repeat constructor|]. split; [exact strategy_frame_eq|]. split; [left; reflexivity|]. split; [left; reflexivity|].
  intros F. inversion F as [|x x' xs xs' [_ [[I _]|[_ E]]]]; subst; [simpl in I; intuition discriminate|discriminate E].
Qed.
Print Assumptions C67_strategy_column_refuted.

(** What happens exactly: with a column of that name, every value in every column is taken for a strategy. *)
Theorem C67_strategy_flat : forall long l names index, rows_fit names index -> In "branching_strategy" (map fst l) ->
  exists l' names' index', pretty_dataframe long (mkT (Flat l) names index) = Ok (mkT (Flat l') names' index') /\
    Forall2 (fun x x' => called pretty_names (fst x) (fst x') /\ exists w, Forall2 strategy_called w (snd x') /\
      ((In (fst x) ["algorithm"; "cost_function"; "branching_strategy"] /\ Forall2 (value_called (if long then long_names else short_names)) (snd x) w) \/
       (~ In (fst x) ["algorithm"; "cost_function"; "branching_strategy"] /\ w = snd x))) l l' /\
    Forall2 name_ok names names' /\ Forall2 (row_ok long names) index index'.
Proof. exact strategy_flat. Qed.
Print Assumptions C67_strategy_flat.

(** The same with several lines of headings, if the first has that name. *)
Theorem C67_strategy_multi : forall long m hs names index h, rows_fit names index -> headed m hs -> In h hs ->
  nth_error (fst h) 0 = Some "branching_strategy" ->
  exists m' names' index', pretty_dataframe long (mkT (Multi m) names index) = Ok (mkT (Multi m') names' index') /\ m_names m' = m_names m /\
    Forall2 (fun c c' => fst c' = fst c /\ Forall2 strategy_called (snd c) (snd c')) (m_cols m) (m_cols m') /\
    Forall2 name_ok names names' /\ Forall2 (row_ok long names) index index'.
Proof. exact strategy_multi. Qed.
Print Assumptions C67_strategy_multi.

Example C67_strategy_case : exists m' names' index',
  pretty_dataframe false (mkT (Multi (mkMidx [None; None] [["branching_strategy"; "num_nodes"]; ["a"; "b"]]
      [([0; 0], [VNum (Fin 4)]); ([1; 1], [VNum (Fin 2)])])) [None] [[VNum (Fin 0)]]) = Ok (mkT (Multi m') names' index') /\
  m_cols m' = [([0; 0], [VStr "Default"]); ([1; 1], [VStr "Strong at tree top"])].
Proof. eexists _, _, _. split; [vm_compute; reflexivity|reflexivity]. Qed.

(** The columns as unstack leaves them, not sorted: the mean gaps are called times. *)
Theorem C67_unsorted_refuted : exists m hs m' hs', headed m hs /\ In (["mean_gap"; "extension"], [VStr "mean_gap of extension"]) hs /\
  pretty_columns (Multi m) = Ok (Multi m') /\ headed m' hs' /\
  In (["$\overline{\text{TIME}}$ (s)"; "suurballes_heuristic"], [VStr "mean_gap of suurballes_heuristic"]) hs'.
Proof.
  exists unsorted, unsorted_heads. eexists. exists
    [(["$\overline{\text{TIME}}$ (s)"; "extension"], [VStr "mean_duration of extension"]);
     (["$\overline{\text{TIME}}$ (s)"; "suurballes_heuristic"], [VStr "mean_duration of suurballes_heuristic"]);
     (["$\overline{\text{TIME}}$ (s)"; "extension"], [VStr "mean_gap of extension"]);
     (["$\overline{\text{TIME}}$ (s)"; "suurballes_heuristic"], [VStr "mean_gap of suurballes_heuristic"])].
  split; [exact unsorted_headed|]. split; [simpl; tauto|]. split; [vm_compute; reflexivity|]. split; [|simpl; tauto].
  repeat constructor; intros [|[|[|]]] s E; try discriminate E; injection E as <-; eexists _, _; repeat split.
Qed.
Print Assumptions C67_unsorted_refuted.

(** ** Cases *)
Definition line1 : cc_line := mkCc (Fin 10) (Fin 90) (Fin 100) (Fin (1 # 9)) 3 4 (Fin 7).
Definition line2 : cc_line := mkCc (Fin 20) (Fin 80) (Fin 100) (Fin (1 # 4)) 2 4 (Fin 0).

(** Two rows, two names, no line for one of the cells. *)
Example C67_case_cost_cover : exists m index,
  cost_cover_latex Tspwplib CostCover [(("EUC_2D", 5%Z, CcShortest), line1); (("EUC_2D", 5%Z, CcNone), line2); (("MST", 10%Z, CcNone), line1)] =
    Ok (mkT (Multi m) [Some "Cost function"; Some "$\alpha$"] index,
        [FmtL; FmtL; FmtNum; FmtNum; FmtGap; FmtR; FmtNum; FmtNum; FmtGap; FmtR; FmtNum; FmtNum; FmtGap; FmtR]) /\
  index = [[VStr "EUC"; VNum (Fin (5 # 100))]; [VStr "MST"; VNum (Fin (10 # 100))]] /\
  m_levels m = [["Cost cover shortest paths"; "No cost cover"];
    ["$\overline{\text{PRE-CUTS}}$"; "$\overline{\text{TIME}}$ (s)"; "$\overline{\text{GAP}}$"; "OPT";
     "$\overline{\text{PRE-CUTS}}$"; "$\overline{\text{TIME}}$ (s)"; "$\overline{\text{GAP}}$"; "OPT"]] /\
  m_cols m = [([0; 0], [VNum (Fin 7); VNum NaN]); ([0; 1], [VNum (Fin 10); VNum NaN]); ([0; 2], [VNum (Fin (1 # 9)); VNum NaN]);
    ([0; 3], [VNum (Fin 3); VNum NaN]); ([1; 0], [VNum (Fin 0); VNum (Fin 7)]); ([1; 1], [VNum (Fin 20); VNum (Fin 10)]);
    ([1; 2], [VNum (Fin (1 # 4)); VNum (Fin (1 # 9))]); ([1; 3], [VNum (Fin 2); VNum (Fin 3)])].
Proof. eexists _, _. split; [vm_compute; reflexivity|]. repeat split. Qed.

Example C67_case_tailing_off :
  tailing_off_latex [((1%Z, 4%Z, (1 # 1000)%Q, 5%Z), mkTailing (Fin 10) (Fin 0) 3 3 (Fin 1) (Fin 20))] =
  Ok (mkT (Flat [("$\overline{\text{TIME}}$ (s)", [VNum (Fin 10)]); ("$\overline{\text{GAP}}$", [VNum (Fin 0)]); ("OPT", [VNum (Fin 3)]);
      ("FEAS", [VNum (Fin 3)]); ("$\mu (NODES)$", [VNum (Fin 1)]); ("$\mu (SEC)$", [VNum (Fin 20)])])
    [Some "$\Delta$"; Some "Branching strategy"; Some "$\gamma$"; Some "$\tau$"]
    [[VNum (Fin 1); VStr "Default"; VNum (Fin (1 # 1000)); VNum (Fin 5)]]).
Proof. vm_compute. reflexivity. Qed.

(** The labels of two columns, and a column that is not in the dictionary. *)
Example C67_case_distinct : called pretty_names "mean_gap" "$\overline{\text{GAP}}$" /\ called pretty_names "gap" "GAP" /\
  called pretty_names "graph_name" "Graph name" /\ called pretty_names "uuid" "uuid" /\ (forall k, ~ In (k, "mean_gap") pretty_names) /\
  (forall k, ~ In (k, "gap") pretty_names).
Proof.
  assert (L : forall s, existsb (fun x => String.eqb (snd x) s) pretty_names = false -> forall k, ~ In (k, s) pretty_names).
  { intros s E k I. assert (X : existsb (fun x => String.eqb (snd x) s) pretty_names = true); [|congruence].
    apply existsb_exists. eexists. split; [exact I|apply String.eqb_refl]. }
  split; [apply pretty_called|]. split; [apply pretty_called|]. split; [apply pretty_called|]. split; [apply (pretty_called "uuid")|].
  split; apply L; vm_compute; reflexivity.
Qed.

(** A frame with one line of headings that meets the hypotheses, and one with two. *)
Example C67_case_flat : rows_fit [Some "graph_name"] [[VStr "st70"]] /\
  ~ In "branching_strategy" (map fst [("algorithm", [VStr "extension"]); ("gap", [VNum (Fin 0)])]) /\
  pretty_dataframe false (mkT (Flat [("algorithm", [VStr "extension"]); ("gap", [VNum (Fin 0)])]) [Some "graph_name"] [[VStr "st70"]]) =
    Ok (mkT (Flat [("Algorithm", [VStr "Ex"]); ("GAP", [VNum (Fin 0)])]) [Some "Graph name"] [[VStr "st70"]]).
Proof. split; [repeat constructor|]. split; [simpl; intuition discriminate|vm_compute; reflexivity]. Qed.

Example C67_case_multi : headed unsorted unsorted_heads /\ ~ codes_are_columns unsorted unsorted_heads /\
  headed (sort_index (swaplevel unsorted)) (sorted_heads ["mean_duration"; "mean_gap"] ["extension"; "suurballes_heuristic"] (fun metric name => [VStr (metric ++ " of " ++ name)])).
Proof.
  split; [exact unsorted_headed|]. split.
  - intros C. destruct (C 2 _ _ 0 1 "mean_gap" eq_refl eq_refl ltac:(discriminate) eq_refl eq_refl) as [h [s [t [E [E' [C1 C2]]]]]].
    injection E as <-. injection E' as <-. apply pretty_eq in C1, C2. rewrite C1 in C2. vm_compute in C2. discriminate.
  - apply sort_unstack_headed; apply no_dup_strings_ok; vm_compute; reflexivity.
Qed.
