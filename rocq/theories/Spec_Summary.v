(** * Spec_Summary: what the statistics and the table of a data set should say, and which tables there should be *)
From Coq Require Import String QArith.
From Verif Require Import Base M_Python M_PyWrap M_RunAlg M_Compare M_Stats M_Dataset M_Csv M_Tables M_Labels M_Summary Spec_Lab Spec_Tables Spec_Labels.
Open Scope nat_scope.
Open Scope string_scope.

(** The statistics of an instance: of the graph of its file, from its first depot; for tspwplib the graph is made sparse, and has
    the other costs for MST. *)
Definition londonaq_measured (S : sources) (name : string) (x : instance_stats * Q * Q) : Prop :=
  exists g root ds, src_londonaq S name = Ok (g, root :: ds) /\ src_stats S g root = Ok x.
Definition tspwplib_measured (S : sources) (name gen cost : string) (kappa : Z) (x : instance_stats * Q * Q) : Prop :=
  exists g root ds g1 g2, src_oplib S gen name = Ok (g, root :: ds) /\ src_sparsify S g (Some kappa) = Ok g1 /\
    (cost = "MST" -> src_mst S g1 = Ok g2) /\ (cost <> "MST" -> g2 = g1) /\ src_stats S g2 root = Ok x.

Definition londonaq_graphs : list string := ["laqbbA"; "laqidA"; "laqkxA"; "laqwsA"].
Definition tspwplib_graphs : list string := ["eil51"; "st70"; "rat195"; "tsp225"; "a280"; "pr439"; "rat575"; "gr666"; "pr1002"].
Definition the_costs : list string := ["EUC_2D"; "MST"].
Definition the_kappas : list Z := [5; 10; 15; 20; 25]%Z.

(** Every instance of the data set has statistics. *)
Definition all_measured (S : sources) (d : dataset_name) : Prop :=
  match d with
  | Londonaq => forall name, In name londonaq_graphs -> exists x, londonaq_measured S name x
  | Tspwplib => forall name gen cost kappa, In name tspwplib_graphs -> In gen (src_generations S) -> In cost the_costs ->
      In kappa the_kappas -> exists x, tspwplib_measured S name gen cost kappa x
  end.

(** The columns of the csv file that have statistics, in order. *)
Definition stat_columns : list (string * (instance_stats * Q * Q -> cell)) :=
  let num (f : instance_stats -> nat) (x : instance_stats * Q * Q) := CInt (Z.of_nat (f (fst (fst x)))) in
  let int (f : instance_stats -> Z) (x : instance_stats * Q * Q) := CInt (f (fst (fst x))) in
  let ratio (f : instance_stats -> Z * Z) (x : instance_stats * Q * Q) := CNum (inject_Z (fst (f (fst (fst x)))) / inject_Z (snd (f (fst (fst x))))) in
  [("num_nodes", num num_nodes); ("num_edges", num num_edges); ("total_cost", int total_cost_stat); ("total_prize", int total_prize_stat);
   ("metricness", fun x => CNum (snd (fst x))); ("biggest_disjoint_prize", int biggest_disjoint_prize);
   ("disjoint_prize_ratio", ratio disjoint_prize_ratio); ("max_disjoint_paths_cost", int max_disjoint_paths_cost);
   ("preprocessed_num_nodes", num pre_num_nodes); ("preprocessed_num_edges", num pre_num_edges);
   ("preprocessed_total_cost", int pre_total_cost); ("preprocessed_total_prize", int pre_total_prize);
   ("preprocessed_metricness", fun x => CNum (snd x)); ("preprocessed_prize_ratio", ratio pre_prize_ratio)].
(** The row of an instance, which the columns [key] identify. *)
Definition csv_row (key : list (string * cell)) (x : instance_stats * Q * Q) (r : row) : Prop :=
  r = (key ++ map (fun c => (fst c, snd c x)) stat_columns)%list.

(** The columns of the table of londonaq. *)
Definition whole (n : nat) : value := VNum (Fin (inject_Z (Z.of_nat n))).
Definition part (ab : Z * Z) : Q := inject_Z (fst ab) / inject_Z (snd ab).
Definition londonaq_heads : list (string * fmt * (instance_stats * Q * Q -> value)) :=
  [("$|V(G)|$", FmtSep, fun x => whole (num_nodes (fst (fst x)))); ("$|E(G)|$", FmtSep, fun x => whole (num_edges (fst (fst x))));
   ("$|V(H)|$", FmtSep, fun x => whole (pre_num_nodes (fst (fst x)))); ("$|E(H)|$", FmtSep, fun x => whole (pre_num_edges (fst (fst x))));
   ("$\frac{p(V(H))}{p(V(G))}$", FmtGap, fun x => VNum (Fin (part (pre_prize_ratio (fst (fst x))))));
   ("$\zeta(G, c)$", FmtGap, fun x => VNum (Fin (snd (fst x))));
   ("$D(G)$", FmtGap, fun x => VNum (Fin (part (disjoint_prize_ratio (fst (fst x))))))].

(** The columns of the table of tspwplib beneath each cost function: means of these ratios. *)
Definition ratio_heads : list (string * (instance_stats -> Q)) :=
  [("\text{AVG}$(D(G))$", fun s => part (disjoint_prize_ratio s));
   ("\text{AVG}$\left(\frac{p(V(H))}{p(V(G))}\right)$", fun s => part (pre_prize_ratio s))].

(** A row of a csv file as the table of tspwplib reads it: an empty field is no number. *)
Definition ratio_read (r : row) (cost : option string) (kappa : option Z) (d p : option Q) : Prop :=
  (exists x, rget r "cost_function" = Some x /\ as_opt as_str x = Some cost) /\
  (exists x, rget r "kappa" = Some x /\ as_opt as_int x = Some kappa) /\
  (exists x, rget r "disjoint_prize_ratio" = Some x /\ as_opt as_num x = Some d) /\
  (exists x, rget r "preprocessed_prize_ratio" = Some x /\ as_opt as_num x = Some p).

(** The numbers among these. *)
Fixpoint numbers (l : list (option Q)) : list Q :=
  match l with [] => [] | Some q :: l => q :: numbers l | None :: l => numbers l end.

(** What is in the cell of [cost] and [kappa]: the mean of the ratios of the rows with these. *)
Definition ratio_cell (rs : list (option string * option Z * option Q * option Q)) (f : option string * option Z * option Q * option Q -> option Q)
    (cost : string) (kappa : Z) (v : value) : Prop :=
  exists sub q, selected (fun r => fst (fst (fst r)) = Some cost /\ snd (fst (fst r)) = Some kappa) rs sub /\ v = VNum q /\
    is_mean (numbers (map f sub)) q.

(** The tables that there should be: for each csv file that exists, the table from it. *)
Inductive due (E : tables_env) : string -> document -> Prop :=
| due_dataset : forall d rows t f, te_dataset E d = Some rows -> dataset_table d rows = Ok (t, f) ->
    due E (match d with Londonaq => "londonaq_dataset.tex" | Tspwplib => "tsplib_dataset.tex" end) (t, Some f)
| due_cost_cover : forall d csv rows t t' f, te_csv E d CostCover = Some csv -> mapM read_row csv = Ok rows ->
    cost_cover_table d CostCover rows = Ok t -> cost_cover_latex d CostCover t = Ok (t', f) ->
    due E (match d with Londonaq => "londonaq_cost_cover.tex" | Tspwplib => "tspwplib_cost_cover.tex" end) (t', Some f)
| due_tailing_off : forall d csv rows t, te_csv E d TailingOff = Some csv -> mapM read_row csv = Ok rows ->
    tailing_off_latex (tailing_off_table rows) = Ok t ->
    due E (match d with Londonaq => "londonaq_tailing_off.tex" | Tspwplib => "tspwplib_tailing_off.tex" end) (t, None).

(** The csv files that exist can be made into tables. *)
Definition files_good (E : tables_env) : Prop :=
  (forall d rows, te_dataset E d = Some rows -> exists t, dataset_table d rows = Ok t) /\
  (forall d, te_csv E d CostCover <> None -> exists doc, cost_cover_doc E d = Ok doc) /\
  (forall d, te_csv E d TailingOff <> None -> exists doc, tailing_off_doc E d = Ok doc) /\
  (forall d, te_csv E d CompareHeuristics <> None -> te_csv E d CostCover <> None -> heuristics_result E d = Ok tt).

(** The files afterwards: those due, but for the names [but], and of the others those there were. *)
Definition as_due (E : tables_env) (but : string -> Prop) (before after : string -> option document) : Prop :=
  forall name, (but name -> after name = before name) /\
    (~ but name -> forall doc, due E name doc -> after name = Some doc) /\
    ((forall doc, ~ due E name doc) -> after name = before name).
