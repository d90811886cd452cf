(** * Spec_Plot: what the drawings and figures should show *)
From Coq Require Import String QArith Qpower.
From Verif Require Import Base M_Python M_PyWrap M_RunAlg M_Compare M_Csv M_Tables M_Plot Spec_Lab.
Open Scope nat_scope.
Open Scope string_scope.

(** ** Lines *)

(** The vertex [u] is drawn at the point [p]. *)
Definition at_point (vs : list vertex_row) (u : nat) (p : Q * Q) : Prop :=
  exists v, In v vs /\ vr_label v = u /\ p = (vr_x v, vr_y v).

(** What plotly draws in the mode lines: a line from each point to the next. *)
Definition line_drawn (s : scatter) (p q : Q * Q) : Prop :=
  sc_mode s = "lines" /\ exists i, nth_error (sc_x s) i = Some (fst p) /\ nth_error (sc_y s) i = Some (snd p) /\
    nth_error (sc_x s) (S i) = Some (fst q) /\ nth_error (sc_y s) (S i) = Some (snd q).

(** The line between the ends of an edge. *)
Definition edge_line (es : list edge_row) (vs : list vertex_row) (p q : Q * Q) : Prop :=
  exists e, In e es /\ at_point vs (fst e) p /\ at_point vs (snd e) q.

(** A line from the end of an edge to the start of the next one in the table. *)
Definition joint_line (es : list edge_row) (vs : list vertex_row) (p q : Q * Q) : Prop :=
  exists i e e', nth_error es i = Some e /\ nth_error es (S i) = Some e' /\ at_point vs (snd e) p /\ at_point vs (fst e') q.

(** [u] and [v] follow each other in the walk. *)
Definition consecutive (walk : list nat) (u v : nat) : Prop := exists i, nth_error walk i = Some u /\ nth_error walk (S i) = Some v.
(** An edge of the tour, in one direction or the other. *)
Definition tour_edge (walk : list nat) (e : edge_row) : Prop := consecutive walk (fst e) (snd e) \/ consecutive walk (snd e) (fst e).

(** ** Figures *)

(** The algorithms that are drawn, with their names and colours in the figure. *)
Definition drawn : list (string * (string * string)) :=
  [("bfs_extension_collapse", ("BFS-EC", "#0072B2")); ("bfs_path_extension_collapse", ("BFS-PEC", "#CC79A7"));
   ("suurballes_extension_collapse", ("SBL-EC", "#E69F00")); ("suurballes_path_extension_collapse", ("SBL-PEC", "black"))].

(** The rows of this cost function, kappa and algorithm. *)
Definition row_of_box (cost : string) (kappa : option Z) (algorithm : string) (j : joined) : Prop :=
  h_cost_function (j_heur j) = cost /\ (exists k, kappa = Some k /\ h_kappa (j_heur j) = Some k) /\ h_algorithm (j_heur j) = algorithm.

(** A box for these shows their gaps, at kappa. *)
Definition box_shows (rows : list joined) (cost : string) (kappa : option Z) (a : string * (string * string)) (legend : bool) (i : nat)
    (b : box) : Prop :=
  bx_name b = fst (snd a) /\ bx_color b = snd (snd a) /\ bx_row b = i /\ bx_group b = kappa /\ bx_legend b = legend /\
  exists sub, selected (row_of_box cost kappa (fst a)) rows sub /\ bx_y b = map j_gap sub /\ bx_x b = map (fun _ => kappa) sub.

(** All boxes of a figure; [first]: this figure is the first. *)
Definition figure_shows (rows : list joined) (cost : string) (first : bool) (kappas : list (option Z)) (bs : list box) : Prop :=
  Forall2 (fun kai b => let '(k, a, i) := kai in
    box_shows rows cost k a (first && Nat.eqb i 1 && match kappas with k0 :: _ => opt_eqb Z.eqb k k0 | [] => false end)%bool i b)
    (list_prod (list_prod kappas drawn) [1; 2]) bs.

(** A number can be seen on an axis of values. *)
Definition on_axis (ax : yaxis) (g : Q) : Prop :=
  if ya_log ax then exists lo hi, (ya_low ax == inject_Z lo /\ ya_high ax == inject_Z hi /\ (10 # 1) ^ lo <= g /\ g <= (10 # 1) ^ hi)%Q
  else (ya_low ax <= g /\ g <= ya_high ax)%Q.
(** The gap of a box can be seen. *)
Definition gap_seen (f : figure) (b : box) (g : Q) : Prop := exists ax, In ax (fg_yaxes f) /\ ya_row ax = bx_row b /\ on_axis ax g.
(** The category with this number can be seen. *)
Definition category_seen (f : figure) (n : nat) : Prop := (fst (fg_xrange f) <= inject_Z (Z.of_nat n) /\ inject_Z (Z.of_nat n) <= snd (fg_xrange f))%Q.
(** The figure has a legend. *)
Definition has_legend (f : figure) : Prop := exists b, In b (fg_boxes f) /\ bx_legend b = true.
