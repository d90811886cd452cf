(** * Spec_Solve: what SCIP is assumed to do, and optimal tours *)
From Coq Require Import Permutation.
From Verif Require Import Base Graph Spec Spec_Cycle M_Solution M_ILP M_Subtour M_CycleCover M_Solve Spec_ILP.
Open Scope Z_scope.

(** ** tours *)

(** A tour from the root that meets the quota, and its cost. *)
Definition feasible_tour (g : graph) (c p : list Z) (quota : Z) (root : nat) (t : list nat) (z : Z) : Prop :=
  tour_from g root t /\ meets_quota p quota t /\ walk_cost g c t z.

(** A feasible tour of least cost. *)
Definition optimal_tour (g : graph) (c p : list Z) (quota : Z) (root : nat) (t : list nat) (z : Z) : Prop :=
  feasible_tour g c p quota root t z /\
  forall t' z', feasible_tour g c p quota root t' z' -> z <= z'.

(** The pairs [r], in any order and each as it stands in the edge list, are the edges of the
    closed tour [t]. *)
Definition edges_of_tour (g : graph) (t : list nat) (r : list (nat * nat)) : Prop :=
  exists es es', trail g t es' /\ Permutation es es' /\
    Forall2 (fun e uv => nth_error (ge g) e = Some uv) es r.

(** The graph with one more edge at every vertex, its self loop. *)
Definition looped (g : graph) : graph :=
  mkGraph (gn g) (ge g ++ map (fun v => (v, v)) (seq 0 (gn g))).

(** The edge numbers [heur], in any order, are those of the tour [t]. *)
Definition heur_of (g : graph) (root : nat) (heur : list nat) (t : list nat) : Prop :=
  tour_from g root t /\ exists es, trail g t es /\ Permutation heur es.

(** The pairs [heur], in any order and each written in either direction, are the edges of
    the tour [t]. *)
Definition heur_pairs (g : graph) (root : nat) (heur : list (nat * nat)) (t : list nat) : Prop :=
  tour_from g root t /\ exists es es', trail g t es' /\ Permutation es es' /\
    Forall2 (fun e uv => joins g e (fst uv) (snd uv)) es heur.

(** ** SCIP *)

(** A 0/1 point that the check callbacks of the installed constraint handlers accept. *)
Definition accepted (fl : solve_flags) (g : graph) (p : list Z) (quota : Z) (root : nat)
  (entries : list (nat * nat)) (s : sol) : Prop :=
  binary g s /\ is_sol_simple_cycle g s entries = Ok true /\
  (fl_cycle_cover fl = true -> cycle_cover_check g p quota root s = Ok Feasible).

(** The objective value of [s] is at most that of [s']. *)
Definition no_worse (obj : list (nat * Z)) (s s' : sol) : Prop :=
  lin_value (s_num s) obj * s_den s' <= lin_value (s_num s') obj * s_den s.

(** A run of SCIP, stopped at any time: the solutions in store are accepted points that
    satisfy the constraints of the model; when the best-solution event is raised
    the upper bound is the value of such a point, and the best solution at the end is not
    worse; subtour separation is called at points of the relaxation. *)
Record scip_run (m : ilp) (acc : sol -> Prop) (cbs : list callback) (sols : list sol) : Prop := {
  run_sols : Forall (fun s => acc s /\ Forall (row_sat s) (i_cons m)) sols;
  run_event : forall n d, In (BestSolFound n d) cbs ->
    0 < d /\ exists s b, acc s /\ Forall (row_sat s) (i_cons m) /\
      n * s_den s = d * lin_value (s_num s) (i_obj m) /\
      hd_error sols = Some b /\ no_worse (i_obj m) b s;
  run_points : forall lib s, In (SepaSubtour lib s) cbs ->
    0 < s_den s /\
    (forall e, (e < length (ge (i_graph m)))%nat -> 0 <= s_num s e <= s_den s) /\
    Forall (row_sat s) (i_cons m) }.

(** The run was not stopped: the best solution is not worse than the solution given at the
    start, if that is one (for the rows [rows0] there at the start), and not worse than any
    accepted point that satisfies the constraints and all rows added. *)
Record scip_finished (m : ilp) (acc : sol -> Prop) (rows0 rows : list lin) (sols : list sol) : Prop := {
  fin_start : forall h, i_heur m = Some h -> acc h -> Forall (row_sat h) (i_cons m ++ rows0) ->
    exists b, hd_error sols = Some b /\ no_worse (i_obj m) b h;
  fin_all : forall s, acc s -> Forall (row_sat s) (i_cons m ++ rows) ->
    exists b, hd_error sols = Some b /\ no_worse (i_obj m) b s }.
