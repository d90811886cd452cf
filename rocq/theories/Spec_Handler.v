(** * Spec_Handler: what the callbacks of the subtour handler should answer *)
From Verif Require Import Base Graph Spec Spec_Cycle M_Solution M_ILP M_Subtour M_Handler Spec_ILP.
Open Scope Z_scope.

(** The value of the variable of edge [e] is above SCIP's tolerance of 1e-9. *)
Definition above_zero (s : sol) (e : nat) : Prop := s_den s < s_num s e * 1000000000.

(** The edges with a value above zero, self loops left out, are one simple cycle through three
    vertices or more. *)
Definition on_one_cycle (g : graph) (s : sol) : Prop :=
  exists es, NoDup es /\ cycle_edges g 2 es /\
    forall e, In e es <-> above_zero s e /\ exists u v, u <> v /\ joins g e u v.

Section Run.
Context {D : Type}.

(** [l]: the gaps of those LP solutions among the calls that were at node [n] and not one
    cycle, in order. *)
Inductive rejected (g : graph) (n : Z) : list (@hcall D) -> list D -> Prop :=
| rej_nil : rejected g n [] []
| rej_here : forall gap st s cs l, ~ on_one_cycle g s -> rejected g n cs l ->
    rejected g n (EnfoLp n gap st s :: cs) (gap :: l)
| rej_cycle : forall n' gap st s cs l, on_one_cycle g s -> rejected g n cs l ->
    rejected g n (EnfoLp n' gap st s :: cs) l
| rej_elsewhere : forall n' gap st s cs l, n' <> n -> rejected g n cs l ->
    rejected g n (EnfoLp n' gap st s :: cs) l
| rej_other : forall c cs l, (forall n' gap st s, c <> EnfoLp n' gap st s) -> rejected g n cs l ->
    rejected g n (c :: cs) l.

(** The last [k] of the gaps [l] improved by less than the threshold: [k] is at least 2, there are
    as many, and the first and the last of them are closer than the threshold. *)
Definition stalled (small : D -> D -> bool) (k : Z) (l : list D) : Prop :=
  exists old a mid b, l = old ++ a :: mid ++ [b] /\ Z.of_nat (length mid) + 2 = k /\ small a b = true.

(** The answer of a separation that added the rows [new] in this order. *)
Definition sepa_answer (lib : scip_lib) (r0 : scip_result) (new : list lin) (r : scip_result) : Prop :=
  (new = [] /\ r = r0) \/
  exists old row, new = old ++ [row] /\ r = if row_infeasible lib row then Cutoff else Separated.

(** SCIP took the row, and it holds for every tour. *)
Definition sound_row (lib : scip_lib) (g : graph) (root : nat) (row : lin) : Prop :=
  efficacious lib row = true /\ forall t x, tour_from g root t -> incidence g t x -> row_sat x row.

(** The answer to call [c] after the calls [before]; [rows] and [rows'] are the rows of SCIP
    before and after it. *)
Definition answers (cfg : hdlr_cfg) (g : graph) (root : nat) (before : list hcall) (c : hcall)
  (rows rows' : list lin) (a : answer) : Prop :=
  match c with
  | CheckSol s | EnfoPs s =>
      rows' = rows /\
      ((on_one_cycle g s /\ a = Says Feasible) \/ (~ on_one_cycle g s /\ a = Says Infeasible))
  | EnfoLp n gap st s =>
      rows' = rows /\
      ((on_one_cycle g s /\ a = Says Feasible) \/
       (~ on_one_cycle g s /\ exists l, rejected g n before l /\
          let b := stalled (h_small cfg) (h_tailing cfg) (l ++ [gap]) /\ (st = LpOptimal \/ st = LpUnboundedRay) in
          (b /\ a = AsksToBranch) \/ (~ b /\ a = Says Infeasible)))
  | SepaLp lib s =>
      exists new r, rows' = rows ++ new /\ a = Says r /\ sepa_answer lib DidNotFind new r /\
        Forall (sound_row lib g root) new
  | SepaSol lib s r0 =>
      exists new r, rows' = rows ++ new /\ a = Says r /\ sepa_answer lib r0 new r /\
        Forall (sound_row lib g root) new
  end.

(** All answers [l] to the calls [cs] after [before]. *)
Inductive all_answers (cfg : hdlr_cfg) (g : graph) (root : nat)
  : list hcall -> list lin -> list hcall -> list answer -> list lin -> Prop :=
| all_nil : forall before rows, all_answers cfg g root before rows [] [] rows
| all_cons : forall before rows c cs a l rows1 rows2,
    answers cfg g root before c rows rows1 a ->
    all_answers cfg g root (before ++ [c]) rows1 cs l rows2 ->
    all_answers cfg g root before rows (c :: cs) (a :: l) rows2.

(** What SCIP passes: numbers of nodes that fit, values with a positive denominator, and, where
    maximum flows are used, a solution with a positive edge at the root. *)
Definition call_ok (cfg : @hdlr_cfg D) (g : graph) (root : nat) (c : @hcall D) : Prop :=
  let sepa s := h_maxflow cfg = true ->
    exists e v, joins g e root v /\ root <> v /\ above_zero s e in
  match c with
  | CheckSol s | EnfoPs s => 0 < s_den s
  | EnfoLp n _ _ s => 0 < s_den s /\ 0 <= n < int_max
  | SepaLp _ s | SepaSol _ s _ => 0 < s_den s /\ sepa s
  end.
End Run.
