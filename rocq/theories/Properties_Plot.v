(** * Properties_Plot: the drawings of graphs and tours, and the figures of the heuristics *)
From Coq Require Import String QArith.
From Verif Require Import Base M_Python M_PyWrap M_RunAlg M_Compare M_Csv M_Tables M_Plot Spec_Lab Spec_Tables Spec_Plot P_Plot.
Open Scope nat_scope.
Open Scope string_scope.

(** A square with the vertices 0, 1, 2 and 3, and a vertex 4 in the middle. *)
Definition square : list vertex_row := [mkVrow 0 0 0 5; mkVrow 1 1 0 3; mkVrow 2 1 1 4; mkVrow 3 0 1 2; mkVrow 4 (1 # 2) (1 # 2) 9].
Example square_labels : NoDup (map vr_label square).
Proof. repeat constructor; simpl; intuition discriminate. Qed.

(** C69: the drawing of a graph has the line of every edge, and besides them exactly the lines from the end of each edge to the
    start of the next one in the table. *)
Theorem C69_edges : forall es vs line, NoDup (map vr_label vs) ->
  (forall e, In e es -> In (fst e) (map vr_label vs) /\ In (snd e) (map vr_label vs)) ->
  exists s, edge_scatter es vs line = Ok s /\ (sc_width s, sc_color s) = match line with Some l => l | None => ((1 # 2)%Q, "#888") end /\
    forall p q, line_drawn s p q <-> edge_line es vs p q \/ joint_line es vs p q.
Proof. exact edge_scatter_ok. Qed.
Print Assumptions C69_edges.

(** C69: an edge with an end that is not in the table of vertices is a KeyError. *)
Theorem C69_edges_missing : forall es vs line e, In e es -> ~ In (fst e) (map vr_label vs) \/ ~ In (snd e) (map vr_label vs) ->
  edge_scatter es vs line = Throw KeyErrorPy.
Proof. exact edge_scatter_missing. Qed.
Print Assumptions C69_edges_missing.

(** The claim that only edges are drawn is false: two sides of the square are joined by a diagonal. *)
Theorem C69_edges_refuted : exists es vs s p q, NoDup (map vr_label vs) /\ edge_scatter es vs None = Ok s /\ line_drawn s p q /\
  ~ edge_line es vs p q /\ ~ edge_line es vs q p.
Proof.
  exists [(0, 1); (3, 2)], square. eexists. exists (1, 0)%Q, (0, 1)%Q.
  split; [exact square_labels|]. split; [reflexivity|]. split; [split; [reflexivity|exists 1; repeat split; reflexivity]|].
  split; (intros [e [[<-|[<-|[]]] [[v [I [L E]]] [w [J [M F]]]]]]; simpl in I, J, L, M;
    repeat (destruct I as [<-|I]; [simpl in L, E; try discriminate L; try discriminate E|]); try contradiction;
    repeat (destruct J as [<-|J]; [simpl in M, F; try discriminate M; try discriminate F|]); contradiction).
Qed.
Print Assumptions C69_edges_refuted.

(** C69: the drawing of a tour has the line of every edge of the table that the tour takes, in its colour, and between those edges
    the same lines as for a graph. *)
Theorem C69_tour : forall tour es vs color, NoDup (map vr_label vs) ->
  (forall e, In e es -> tour_edge tour e -> In (fst e) (map vr_label vs) /\ In (snd e) (map vr_label vs)) ->
  exists s sub, tour_edges_trace tour es vs color = Ok s /\ sc_color s = color /\ sc_width s = 1%Q /\ selected (tour_edge tour) es sub /\
    forall p q, line_drawn s p q <-> edge_line sub vs p q \/ joint_line sub vs p q.
Proof. exact tour_ok. Qed.
Print Assumptions C69_tour.

(** C69: no other line is longer than a point if each edge starts where the one before it in the table ends. *)
Theorem C69_in_order : forall es vs, NoDup (map vr_label vs) ->
  (forall i e e', nth_error es i = Some e -> nth_error es (S i) = Some e' -> snd e = fst e') ->
  forall p q, joint_line es vs p q -> p = q.
Proof. exact joint_point. Qed.
Print Assumptions C69_in_order.

(** The claim that the drawing of a tour has lines between consecutive vertices only is false: the rows (0, 1) and (2, 3) of the
    tour 0, 1, 2, 3, 0 are drawn with the row (1, 2) after them, and so is the diagonal from 3 to 1. *)
Theorem C69_tour_refuted : exists tour es vs s u v p q, NoDup (map vr_label vs) /\ tour_edges_trace tour es vs "black" = Ok s /\
  line_drawn s p q /\ at_point vs u p /\ at_point vs v q /\ p <> q /\ ~ tour_edge tour (u, v).
Proof.
  exists [0; 1; 2; 3; 0], [(0, 1); (2, 3); (1, 2); (3, 0)], square. eexists. exists 3, 1, (0, 1)%Q, (1, 0)%Q.
  split; [exact square_labels|]. split; [reflexivity|]. split; [split; [reflexivity|exists 3; repeat split; reflexivity]|].
  split; [exists (mkVrow 3 0 1 2); simpl; auto 6|]. split; [exists (mkVrow 1 1 0 3); simpl; auto|]. split; [discriminate|].
  intros [[i [A B]]|[i [A B]]]; do 5 (destruct i as [|i]; [try discriminate A; try discriminate B|]); simpl in A; try discriminate A; destruct i; discriminate A.
Qed.
Print Assumptions C69_tour_refuted.

Example C69_edges_case : edge_scatter [(0, 1); (1, 4)] square None = Ok (mkScatter [0; 1; 1; (1 # 2)]%Q [0; 0; 0; (1 # 2)]%Q "lines" (1 # 2) "#888") /\
  edge_scatter [(0, 1); (1, 7)] square None = Throw KeyErrorPy /\
  (exists v, vertex_scatter (firstn 2 square) = (v, [5; 3]%Q) /\ sc_x v = [0; 1]%Q /\ sc_y v = [0; 0]%Q /\ sc_mode v = "markers" /\ sc_width v = 2%Q).
Proof. split; [reflexivity|]. split; [reflexivity|]. eexists. split; [reflexivity|]. repeat split; reflexivity. Qed.
(** The tour 0, 1, 2, 0 takes an edge against its direction and leaves the others out. *)
Example C69_tour_case : tour_edges_trace [0; 1; 2; 0] [(0, 1); (0, 4); (1, 2); (0, 2); (3, 9)] square "red" =
  Ok (mkScatter [0; 1; 1; 1; 0; 1]%Q [0; 0; 0; 1; 0; 1]%Q "lines" 1 "red") /\ tour_edge [0; 1; 2; 0] (0, 2).
Proof. split; [reflexivity|]. right. exists 2. split; reflexivity. Qed.
Example C69_in_order_case : forall i e e', nth_error [(0, 1); (1, 2); (2, 0)] i = Some e -> nth_error [(0, 1); (1, 2); (2, 0)] (S i) = Some e' -> snd e = fst e'.
Proof. intros [|[|[|i]]] e e' A B; try discriminate B; injection A as <-; injection B as <-; reflexivity. Qed.

(** C69: with the algorithms all known, both figures are written. In each there is for each kappa, algorithm and row of the figure a
    box of its name and colour with the gaps of exactly its instances; the legend is that of the first kappa in the upper row of
    the first figure. *)
Theorem C69_figures : forall parent dir t l, (dir || parent = true)%bool ->
  (forall j, In j t \/ In j l -> exists s, In (h_algorithm (j_heur j), s) names) ->
  exists kappas b1 b2, NoDup kappas /\ (forall k, In k kappas <-> exists j, In j t /\ h_kappa (j_heur j) = k) /\
    figure_shows t "EUC_2D" true kappas b1 /\ figure_shows t "MST" false kappas b2 /\
    plot_heuristics_figure parent dir (Ok t) (Ok l) = (true, Ok [("tspwplib_EUC_2D_heuristics.pdf", mkFigure b1 y_axes x_range);
      ("tspwplib_MST_heuristics.pdf", mkFigure b2 y_axes x_range)]).
Proof. exact figures_ok. Qed.
Print Assumptions C69_figures.

(** C69: when no figure is written: the directory above is missing, one of the tables cannot be read, londonaq included although
    nothing of it is drawn, or an algorithm of either is unknown. *)
Theorem C69_stops : forall parent dir t l,
  (dir || parent = false -> plot_heuristics_figure parent dir t l = (false, Throw FileNotFoundErrorPy))%bool /\
  (dir || parent = true ->
    (forall e, t = Throw e -> plot_heuristics_figure parent dir t l = (true, Throw e)) /\
    (forall t' e, t = Ok t' -> l = Throw e -> plot_heuristics_figure parent dir t l = (true, Throw e)) /\
    (forall t' l' j, t = Ok t' -> l = Ok l' -> In j t' \/ In j l' -> (forall s, ~ In (h_algorithm (j_heur j), s) names) ->
       plot_heuristics_figure parent dir t l = (true, Throw KeyErrorPy)))%bool.
Proof. exact stops. Qed.
Print Assumptions C69_stops.

(** C69: a gap can be seen in the upper row from a hundredth to a hundred, and in the lower row from minus a thousandth to nine
    thousandths. *)
Theorem C69_visible : forall bs b g, gap_seen (mkFigure bs y_axes x_range) b g <->
  bx_row b = 1 /\ (1 # 100 <= g /\ g <= 100 # 1)%Q \/ bx_row b = 2 /\ (- (1 # 1000) <= g /\ g <= 9 # 1000)%Q.
Proof. exact seen_iff. Qed.
Print Assumptions C69_visible.

(** C69: of the values of kappa, the first five can be seen. *)
Theorem C69_categories : forall bs ya n, category_seen (mkFigure bs ya x_range) n <-> n < 5.
Proof. exact category_iff. Qed.
Print Assumptions C69_categories.

(** C69: what can be seen of the axis of the values of kappa is half a category on each side of the first five. *)
Theorem C69_bands : forall bs ya x, (fst (fg_xrange (mkFigure bs ya x_range)) <= x /\ x <= snd (fg_xrange (mkFigure bs ya x_range)))%Q <->
  exists n, n < 5 /\ (inject_Z (Z.of_nat n) - (1 # 2) <= x /\ x <= inject_Z (Z.of_nat n) + (1 # 2))%Q.
Proof. exact bands_iff. Qed.
Print Assumptions C69_bands.

(** C69: a name without a colour is not drawn. *)
Theorem C69_no_colour : forall rows algorithm showlegend group,
  ~ In algorithm ["BFS-EC"; "BFS-PEC"; "SBL-EC"; "SBL"; "SBL-PEC"] -> add_traces_heuristic rows algorithm showlegend group = Throw KeyErrorPy.
Proof. exact no_colour. Qed.
Print Assumptions C69_no_colour.
Example C69_no_colour_case : ~ In "Ex" ["BFS-EC"; "BFS-PEC"; "SBL-EC"; "SBL"; "SBL-PEC"].
Proof. simpl. intuition discriminate. Qed.

(** C69: the legend of the first figure is that of its first kappa in the upper row, and the second figure has none. *)
Theorem C69_legend : forall t cost k kappas bs,
  (figure_shows t cost true (k :: kappas) bs -> forall b, In b bs -> (bx_legend b = true <-> bx_row b = 1 /\ bx_group b = k)) /\
  (forall ya x, figure_shows t cost false kappas bs -> ~ has_legend (mkFigure bs ya x)).
Proof. intros t cost k kappas bs. split; [exact (figure_legend t cost k kappas bs)|]. intros ya x. exact (figure_no_legend t cost kappas bs). Qed.
Print Assumptions C69_legend.

(** Rows for the cases. *)
Definition a_row (cost : string) (kappa : Z) (algorithm : string) (objective : Q) : joined :=
  join_row (mkHeur "tspwplib" "att48" 10 0 (Some "gen1") (Some kappa) cost (Some 50%Z) algorithm None None None (Fin objective) true 1) (Fin 2000).
Definition some_rows : list joined :=
  [a_row "EUC_2D" 5 "bfs_extension_collapse" 2019; a_row "EUC_2D" 5 "suurballes_path_extension_collapse" 2100;
   a_row "MST" 5 "bfs_extension_collapse" 2000; a_row "EUC_2D" 10 "bfs_extension_collapse" 4000; a_row "EUC_2D" 5 "extension" 3000].
Example C69_rows_known : forall j, In j some_rows \/ In j [] -> exists s, In (h_algorithm (j_heur j), s) names.
Proof.
  intros j [I|[]]. simpl in I. unfold names. destruct I as [<-|[<-|[<-|[<-|[<-|[]]]]]];
    [exists "BFS-EC"|exists "SBL-PEC"|exists "BFS-EC"|exists "BFS-EC"|exists "Ex"]; simpl; tauto.
Qed.
Example C69_figures_case : exists f1 f2, plot_heuristics_figure true false (Ok some_rows) (Ok []) =
    (true, Ok [("tspwplib_EUC_2D_heuristics.pdf", f1); ("tspwplib_MST_heuristics.pdf", f2)]) /\
  List.length (fg_boxes f1) = 16 /\ List.length (fg_boxes f2) = 16 /\
  map (fun b => (bx_name b, bx_row b, bx_legend b, bx_group b, List.length (bx_y b))) (firstn 4 (fg_boxes f1)) =
    [("BFS-EC", 1, true, Some 5%Z, 1); ("BFS-EC", 2, false, Some 5%Z, 1); ("BFS-PEC", 1, true, Some 5%Z, 0); ("BFS-PEC", 2, false, Some 5%Z, 0)].
Proof. eexists. eexists. split; [vm_compute; reflexivity|]. repeat split; vm_compute; reflexivity. Qed.
Example C69_stops_case : plot_heuristics_figure true false (Ok some_rows) (Throw FileNotFoundErrorPy) = (true, Throw FileNotFoundErrorPy) /\
  plot_heuristics_figure true false (Ok some_rows) (Ok [a_row "MST" 5 "simulated_annealing" 1]) = (true, Throw KeyErrorPy).
Proof. split; vm_compute; reflexivity. Qed.

(** The claim that every gap can be seen is false: one of 19 in 2000 is in a box of each row, and outside of both axes. *)
Theorem C69_visible_refuted : exists t f1 fs g, plot_heuristics_figure true false (Ok t) (Ok []) = (true, Ok (("tspwplib_EUC_2D_heuristics.pdf", f1) :: fs)) /\
  (exists j, In j t /\ h_cost_function (j_heur j) = "EUC_2D" /\ j_gap j = Fin g) /\ (0 <= g <= 1)%Q /\
  (exists b1 b2, In b1 (fg_boxes f1) /\ In b2 (fg_boxes f1) /\ bx_row b1 = 1 /\ bx_row b2 = 2 /\ In (Fin g) (bx_y b1) /\ In (Fin g) (bx_y b2)) /\
  forall b, In b (fg_boxes f1) -> ~ gap_seen f1 b g.
Proof.
  destruct (j_gap (hd (a_row "EUC_2D" 5 "bfs_extension_collapse" 2019) some_rows)) as [| |g] eqn:G; try (vm_compute in G; discriminate).
  destruct (plot_heuristics_figure true false (Ok some_rows) (Ok [])) as [d r] eqn:E.
  exists some_rows. vm_compute in G. injection G as <-. vm_compute in E. injection E as <- <-.
  eexists. eexists. eexists. split; [vm_compute; reflexivity|]. split; [exists (a_row "EUC_2D" 5 "bfs_extension_collapse" 2019); split; [simpl; auto|split; [reflexivity|vm_compute; reflexivity]]|].
  split; [split; discriminate|]. split.
  - eexists. eexists. split; [left; reflexivity|]. split; [right; left; reflexivity|]. repeat split; simpl; auto.
  - intros b _ S. apply C69_visible in S. destruct S as [[_ [A B]]|[_ [A B]]]; [apply A; reflexivity|apply B; reflexivity].
Qed.
Print Assumptions C69_visible_refuted.

(** The claim that every figure has a legend is false, with the same rows. *)
Theorem C69_legend_refuted : exists t f1 f2, plot_heuristics_figure true false (Ok t) (Ok []) =
    (true, Ok [("tspwplib_EUC_2D_heuristics.pdf", f1); ("tspwplib_MST_heuristics.pdf", f2)]) /\
  has_legend f1 /\ fg_boxes f2 <> [] /\ ~ has_legend f2.
Proof.
  exists some_rows. eexists. eexists. split; [vm_compute; reflexivity|]. split; [eexists; split; [left; reflexivity|reflexivity]|].
  split; [discriminate|]. intros [b [I L]]. cbn [fg_boxes] in I.
  repeat (destruct I as [<-|I]; [discriminate L|]). destruct I.
Qed.
Print Assumptions C69_legend_refuted.
