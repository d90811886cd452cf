(** * M_Handler: the callbacks of the subtour constraint handler,
    src/subtour_elimination.cpp:170-233 and 297-306, include/pctsp/subtour_elimination.hh:198-259

    SCIP is not modelled; it calls the callbacks in any order.  Logging and the unused reads at
    the end of [scip_enfolp] (subtour_elimination.cpp:228-231) are left out. *)
From Verif Require Import Base Graph M_Walk M_Graph M_Solution M_ILP M_Subtour M_MaxFlow.
Open Scope Z_scope.

Section Handler.
(** Doubles are stored and compared, never changed, here (subtour_elimination.cpp:209, 276-294). *)
Context {D : Type}.

(** [SCIP_LPSOLSTAT], of which subtour_elimination.cpp:217 asks for two values. *)
Inductive lp_solstat :=
| LpNotSolved | LpOptimal | LpInfeasible | LpUnboundedRay | LpObjLimit | LpIterLimit | LpTimeLimit
| LpError.

(** The members that the constructor sets (subtour_elimination.hh:216-220, 225-244).
    [h_small a b] is the comparison [a - b < sec_lp_gap_improvement_threshold] of doubles. *)
Record hdlr_cfg := mkHdlr {
  h_disjoint : bool; h_small : D -> D -> bool; h_maxflow : bool; h_tailing : Z }.

(** What a run changes: [node_rolling_lp_gap], which the constructor leaves empty
    (subtour_elimination.hh:216, 243), and the rows in the separation storage (sciputils.cpp:28-72). *)
Record hdlr := mkHd { hd_gaps : list (list D); hd_rows : list lin }.

(** The constructor (subtour_elimination.hh:225-244). *)
Definition new_hdlr : hdlr := mkHd [] [].

(** The second constructor (subtour_elimination.hh:246-247) passes -1 for the number of
    iterations; [zero_small] is the comparison with the threshold 0. *)
Definition default_cfg (zero_small : D -> D -> bool) (disjoint maxflow : bool) : hdlr_cfg :=
  mkHdlr disjoint zero_small maxflow (-1).

(** What a callback leaves in [*result]: a value it wrote itself, or whatever [SCIPbranchLP]
    wrote (subtour_elimination.cpp:220). *)
Inductive answer := Says (r : scip_result) | AsksToBranch.

(** [int node_id = SCIPnodeGetNumber(node)] (subtour_elimination.cpp:210): the long number
    modulo 2^32. *)
Definition to_int (z : Z) : Z :=
  let m := z mod 4294967296 in if m <? 2147483648 then m else m - 4294967296.

(** subtour_elimination.cpp:211-214: the vector is made long enough for [id].  A negative [id]
    becomes huge when compared with the unsigned size, and so does the new size, except that
    -1 empties the vector, after which the index -1 is out of bounds. *)
Definition roll_resize (id : Z) (gaps : list (list D)) : res (list (list D)) :=
  if id <? 0 then (if id =? -1 then UB VecOOB else Throw LengthError)
  else if Z.of_nat (length gaps) <=? id
  then do _ <- chk (id + 1); Ok (gaps ++ repeat [] (Z.to_nat id + 1 - length gaps))
  else Ok gaps.

(** The two values of subtour_elimination.cpp:217. *)
Definition may_branch (st : lp_solstat) : bool :=
  match st with LpUnboundedRay | LpOptimal => true | _ => false end.

(** subtour_elimination.cpp:189-199 [scip_enfops] and 170-187 [scip_check]. *)
Definition check_sol (g : graph) (entries : list (nat * nat)) (s : sol) : res answer :=
  do b <- is_sol_simple_cycle g s entries;
  Ok (Says (if b then Feasible else Infeasible)).

(** subtour_elimination.cpp:201-233 [scip_enfolp] for the LP solution [s] at the node with
    number [number]; [gap] is what [SCIPcomputeGap] answers. *)
Definition enfolp (cfg : hdlr_cfg) (g : graph) (entries : list (nat * nat)) (number : Z) (gap : D)
  (st : lp_solstat) (s : sol) (gaps : list (list D)) : res (list (list D) * answer) :=
  do b <- is_sol_simple_cycle g s entries;
  if b then Ok (gaps, Says Feasible)
  else
    let id := to_int number in
    do gaps <- roll_resize id gaps;
    do l <- vget gaps (Z.to_nat id);
    let l := push_rolling l gap (h_tailing cfg) in
    do gaps <- vset gaps (Z.to_nat id) l;
    do t <- is_node_tailing_off (h_small cfg) l (h_tailing cfg);
    Ok (gaps, if andb t (may_branch st) then AsksToBranch else Says Infeasible).

(** The calls of SCIP (subtour_elimination.cpp:170-233, 297-306).  [SepaSol] carries the value
    of [*result] at the call. *)
Inductive hcall :=
| CheckSol (s : sol)
| EnfoPs (s : sol)
| EnfoLp (number : Z) (gap : D) (st : lp_solstat) (s : sol)
| SepaLp (lib : scip_lib) (s : sol)
| SepaSol (lib : scip_lib) (s : sol) (r0 : scip_result).

(** One call.  subtour_elimination.cpp:297-301 [scip_sepalp] writes SCIP_DIDNOTFIND first,
    303-306 [scip_sepasol] does not. *)
Definition hdlr_call (cfg : hdlr_cfg) (mf : flow_lib) (g : graph) (entries : list (nat * nat))
  (root : nat) (h : hdlr) (c : hcall) : res (hdlr * answer) :=
  let sepa lib s r0 :=
    do '(sp, _, _) <- separate_subtour lib mf g s entries (var_map g) root
                        (h_disjoint cfg) (h_maxflow cfg) (mkSepa (hd_rows h) r0);
    Ok (mkHd (hd_gaps h) (sp_rows sp), Says (sp_result sp)) in
  match c with
  | CheckSol s | EnfoPs s => do a <- check_sol g entries s; Ok (h, a)
  | EnfoLp n gap st s =>
      do '(gaps, a) <- enfolp cfg g entries n gap st s (hd_gaps h);
      Ok (mkHd gaps (hd_rows h), a)
  | SepaLp lib s => sepa lib s DidNotFind
  | SepaSol lib s r0 => sepa lib s r0
  end.

(** A run: the calls in order, with the answers (see [hcall]). *)
Definition hdlr_run (cfg : hdlr_cfg) (mf : flow_lib) (g : graph) (entries : list (nat * nat))
  (root : nat) (h : hdlr) (cs : list hcall) : res (hdlr * list answer) :=
  foldM (fun ha c => do '(h, a) <- hdlr_call cfg mf g entries root (fst ha) c;
                     Ok (h, snd ha ++ [a])) cs (h, []).
End Handler.
