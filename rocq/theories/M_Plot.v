(** * M_Plot: the drawings of graphs and tours and the figures of the heuristics: pctsp/plot, pctsp/apps/plot_app.py. Colours of
    vertices, fonts, sizes and margins are left out, and so is logging. *)
From Coq Require Import String QArith.
From Verif Require Import Base M_Python M_PyWrap M_RunAlg M_Compare M_Csv M_Tables M_Summary.
Open Scope nat_scope.
Open Scope string_scope.

(** *** Graphs and tours *)

(** A row of the table of vertices: the label of the index and the columns x, y and prize (plot_edges.py:25,33;
    plot_vertices.py:16-17,25). The columns may have other names (plot_edges.py:11-14), which is not modelled. *)
Record vertex_row := mkVrow { vr_label : nat; vr_x : Q; vr_y : Q; vr_prize : Q }.
(** A row of the table of edges: the columns source and target (plot_edges.py:19). *)
Definition edge_row := (nat * nat)%type.

(** [vertex_df.at[label, column]] (plot_edges.py:25,33; pandas), for an index without repetitions: a KeyError if there is no
    such label. *)
Definition at_label (f : vertex_row -> Q) (vs : list vertex_row) (label : nat) : res Q :=
  match find (fun v => Nat.eqb (vr_label v) label) vs with Some v => Ok (f v) | None => Throw KeyErrorPy end.

(** [go.Scatter] with the coordinates, the width and colour of the line, and its mode (plot_edges.py:40-52;
    plot_vertices.py:15-31). *)
Record scatter := mkScatter { sc_x : list Q; sc_y : list Q; sc_mode : string; sc_width : Q; sc_color : string }.

(** edge_x and edge_y, plot_edges.py:22-37: the flattened array of pairs. *)
Definition edge_coordinates (f : vertex_row -> Q) (es : list edge_row) (vs : list vertex_row) : res (list Q) :=
  do l <- mapM (fun e => do a <- at_label f vs (fst e); do b <- at_label f vs (snd e); Ok [a; b]) es;
  Ok (concat l).

(** edge_scatter, plot_edges.py:8-52; [line] is the width and colour of the keyword line, if given (45). *)
Definition edge_scatter (es : list edge_row) (vs : list vertex_row) (line : option (Q * string)) : res scatter :=
  do xs <- edge_coordinates vr_x es vs;
  do ys <- edge_coordinates vr_y es vs;
  let '(w, c) := match line with Some l => l | None => ((1 # 2)%Q, "#888") end in
  Ok (mkScatter xs ys "lines" w c).

(** vertex_scatter, plot_vertices.py:8-31: the width is that of the rim (29); the colours of the markers are the prizes (25). *)
Definition vertex_scatter (vs : list vertex_row) : scatter * list Q :=
  (mkScatter (map vr_x vs) (map vr_y vs) "markers" 2 "", map vr_prize vs).

(** graph_trace, plot_graph.py:11-16. *)
Definition graph_trace (es : list edge_row) (vs : list vertex_row) : res (scatter * (scatter * list Q)) :=
  do e <- edge_scatter es vs None;
  Ok (e, vertex_scatter vs).

(** edge_list_from_walk (plot_tour.py:31; tspwplib): the pairs of consecutive vertices. *)
Fixpoint walk_pairs (walk : list nat) : list (nat * nat) :=
  match walk with
  | u :: rest => match rest with [] => [] | v :: _ => (u, v) :: walk_pairs rest end
  | [] => []
  end.

(** Equality of pairs (plot_tour.py:35; Python). *)
Definition pair_eqb (a b : nat * nat) : bool := Nat.eqb (fst a) (fst b) && Nat.eqb (snd a) (snd b).

(** tour_edges_trace, plot_tour.py:10-54, for a table of edges with at least one row. *)
Definition tour_edges_trace (tour : list nat) (es : list edge_row) (vs : list vertex_row) (color : string) : res scatter :=
  let tour_edge_set := walk_pairs tour in
  let tour_edges := filter (fun e => existsb (pair_eqb (fst e, snd e)) tour_edge_set || existsb (pair_eqb (snd e, fst e)) tour_edge_set)%bool es in
  let tour_vertices := filter (fun v => existsb (Nat.eqb (vr_label v)) tour) vs in
  edge_scatter tour_edges tour_vertices (Some (1%Q, color)).

(** *** The figures of the heuristics *)

(** ALGORITHM_COLORMAP, plot_app.py:18-24: some keys are values of the enumeration, some its members, which are equal strings. *)
Definition colormap : list (string * string) :=
  [("BFS-EC", "#0072B2"); ("BFS-PEC", "#CC79A7"); ("SBL-EC", "#E69F00"); ("SBL", "#009E73"); ("SBL-PEC", "black")].

(** [go.Box], plot_app.py:147-174: x, y, the group of alignment, the name, which is also the group of the offset, whether it is in
    the legend, the colour, and the row of the figure. *)
Record box := mkBox { bx_x : list (option Z); bx_y : list num; bx_group : option Z; bx_name : string; bx_legend : bool;
  bx_color : string; bx_row : nat }.

(** A row of the joined table with the short name of its algorithm (plot_app.py:41-46). *)
Definition named_row := (joined * string)%type.

(** add_traces_heuristic, plot_app.py:137-174. *)
Definition add_traces_heuristic (rows : list named_row) (algorithm : string) (showlegend : bool) (group : option Z) : res (list box) :=
  let rows := filter (fun r => String.eqb (snd r) algorithm) rows in
  do color <- (match find (fun p => String.eqb (fst p) algorithm) colormap with Some (_, c) => Ok c | None => Throw KeyErrorPy end);
  let b legend i := mkBox (map (fun _ => group) rows) (map (fun r => j_gap (fst r)) rows) group algorithm legend color i in
  Ok [b showlegend 1; b false 2].

(** [level == kappa] (plot_app.py:87-89; pandas): an empty field is not equal to anything, itself included. *)
Definition same_kappa (kappa : option Z) (r : named_row) : bool :=
  match h_kappa (j_heur (fst r)), kappa with Some a, Some b => Z.eqb a b | _, _ => false end.

(** The algorithms of the figure, plot_app.py:99-104. *)
Definition plotted_algorithms : list string := ["BFS-EC"; "BFS-PEC"; "SBL-EC"; "SBL-PEC"].

(** The loop over kappa, plot_app.py:86-112, with show_legend. *)
Fixpoint kappa_boxes (rows : list named_row) (cost : string) (kappas : list (option Z)) (show_legend : bool) : res (list box * bool) :=
  match kappas with
  | [] => Ok ([], show_legend)
  | kappa :: kappas =>
      let kappa_rows := filter (same_kappa kappa) rows in
      let kappa_rows := filter (fun r => String.eqb (h_cost_function (j_heur (fst r))) cost) kappa_rows in
      do bs <- mapM (fun a => add_traces_heuristic kappa_rows a show_legend kappa) plotted_algorithms;
      do '(rest, show_legend) <- kappa_boxes rows cost kappas false;
      Ok ((concat bs ++ rest)%list, show_legend)
  end.

(** An axis of values: the row of the figure, whether it is logarithmic, and its range, which is of exponents then. *)
Record yaxis := mkYaxis { ya_row : nat; ya_log : bool; ya_low : Q; ya_high : Q }.
(** update_layout_heuristic, plot_app.py:177-223: log_min_power and log_max_power are -2 and 2, x_range is [-0.5, 4.5]. The numbers
    are exact, where Python rounds 10**-2 - 0.001. *)
Definition y_axes : list yaxis := [mkYaxis 1 true (- (2 # 1)) (2 # 1); mkYaxis 2 false (- (1 # 1000)) ((1 # 100) - (1 # 1000))].
(** With the definition above, plot_app.py:177-223. *)
Definition x_range : Q * Q := (- (1 # 2), (9 # 2))%Q.

(** A figure, with the axes of the rows (plot_app.py:78-125). *)
Record figure := mkFigure { fg_boxes : list box; fg_yaxes : list yaxis; fg_xrange : Q * Q }.

(** The loop over the cost functions, plot_app.py:76-134: show_legend is not set again. *)
Fixpoint cost_figures (rows : list named_row) (costs : list string) (show_legend : bool) : res (list (string * figure)) :=
  match costs with
  | [] => Ok []
  | cost :: costs =>
      do '(bs, show_legend) <- kappa_boxes rows cost (distinct (opt_eqb Z.eqb) (map (fun r => h_kappa (j_heur (fst r))) rows)) show_legend;
      do rest <- cost_figures rows costs show_legend;
      Ok (("tspwplib_" ++ cost ++ "_heuristics.pdf", mkFigure bs y_axes x_range) :: rest)
  end.

(** The short names, plot_app.py:41-46. *)
Definition give_short_names (rows : list joined) : res (list named_row) :=
  mapM (fun j => do s <- short_name (h_algorithm (j_heur j)); Ok (j, s)) rows.

(** plot_heuristics_figure, plot_app.py:27-134: whether the directory exists afterwards, and the files that are written in it. The
    data sets are given by their joined tables (get_heuristics_df, M_Tables); [parent] and [dir]: whether the directory above and
    the directory exist. *)
Definition plot_heuristics_figure (parent dir : bool) (tspwplib londonaq : res (list joined)) : bool * res (list (string * figure)) :=
  if (dir || parent)%bool then
    (true, do t <- tspwplib;
           do l <- londonaq;
           do t <- give_short_names t;
           do _ <- give_short_names l;
           cost_figures t ["EUC_2D"; "MST"] true)
  else (false, Throw FileNotFoundErrorPy).
