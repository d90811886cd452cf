(** * M_Subtour: src/sciputils.cpp, src/subtour_elimination.cpp and
    include/pctsp/subtour_elimination.hh *)
From Verif Require Import Base Graph M_Walk M_Graph M_Solution M_ILP.
Open Scope Z_scope.

(** ** sciputils *)

(** [SCIP_RESULT]: the values the code writes (sciputils.cpp:65,67). *)
Inductive scip_result :=
| DidNotRun | DidNotFind | Feasible | Infeasible | Separated | Cutoff | Branched.

(** src/sciputils.cpp:10-26 [fillPositiveNegativeVars]: [all_vars] and [var_coefs] have the
    sizes the caller gave them.  The two asserts are compiled out in a release build; then
    the loops write [all_vars] up to its own size, read [negative_vars] unchecked, and
    [std::fill] runs up to [coef_it]. *)
Definition fill_positive_negative_vars (pos neg : list nat) (n_all n_coefs : nat)
  : res (list nat * list Z) :=
  let np := length pos in
  if Nat.ltb n_all np then UB VecOOB
  else if Nat.ltb (length neg) (n_all - np) then UB VecOOB
  else if Nat.ltb n_coefs np then UB IterPastEnd
  else Ok (pos ++ firstn (n_all - np) neg, repeat 1 np ++ repeat (-1) (n_coefs - np)).

(** The state of SCIP that [addRow] (sciputils.cpp:28-72) changes: the rows in the separation storage (in the
    order added) and the value pointed to by [result]. *)
Record sepa := mkSepa { sp_rows : list lin; sp_result : scip_result }.

(** Two library decisions [addRow] depends on: [SCIPisCutEfficacious(scip, sol, row)]
    (sciputils.cpp:61) and the flag [infeasible] of [SCIPaddRow] (sciputils.cpp:63). *)
Record scip_lib := mkLib { efficacious : lin -> bool; row_infeasible : lin -> bool }.

(** src/sciputils.cpp:28-72 [addRow]; [vals] is read for every variable.  The transformed
    variables are identified with the original ones. *)
Definition add_row (lib : scip_lib) (vars : list nat) (coefs : list Z)
  (lhs rhs : option Z) (st : sepa) : res sepa :=
  if Nat.ltb (length coefs) (length vars) then UB VecOOB
  else
    let row := mkLin (combine vars coefs) lhs rhs in
    if efficacious lib row
    then Ok (mkSepa (sp_rows st ++ [row])
                    (if row_infeasible lib row then Cutoff else Separated))
    else Ok st.

(** ** subtour elimination *)

(** src/subtour_elimination.cpp:42-109 [addSubtourEliminationConstraint] up to the call of
    [addRow]: variables and coefficients of the row. *)
Definition sec_terms (g : graph) (m : nat -> option nat) (S : list nat) (root target : nat)
  : res (list nat * list Z) :=
  let root_found := memb root S in
  let target_found := memb target S in
  if negb (orb root_found target_found) then Throw VertexNotFoundException
  else if andb root_found target_found then Throw VertexInWrongSetException
  else
    do es <- get_edges_induced g S;
    do evars <- get_edge_variables m es;
    let to_find :=
      filter (fun v => orb root_found (andb target_found (negb (Nat.eqb v target)))) S
      ++ (if root_found then [target] else []) in
    do loops <- get_self_loops g to_find;
    do vvars <- get_edge_variables m loops;
    let nvars := (length evars + length vvars)%nat in
    do '(vars, coefs) <- fill_positive_negative_vars evars vvars nvars nvars;
    do coefs <- (if root_found then vset coefs (length coefs - 1) 1 else Ok coefs);
    Ok (vars, coefs).

(** src/subtour_elimination.cpp:42-109 [addSubtourEliminationConstraint]. *)
Definition add_sec (lib : scip_lib) (g : graph) (m : nat -> option nat) (S : list nat)
  (root target : nat) (st : sepa) : res sepa :=
  do '(vars, coefs) <- sec_terms g m S root target;
  add_row lib vars coefs None (Some 0) st.

(** include/pctsp/subtour_elimination.hh:151-171: the inner loops for one component; the
    counter [num_conss_added] is incremented for every call. *)
Definition sec_component (lib : scip_lib) (g : graph) (m : nat -> option nat) (root : nat)
  (S : list nat) (st : sepa * nat) : res (sepa * nat) :=
  foldM (fun st target => do st' <- add_sec lib g m S root target (fst st);
                          Ok (st', Datatypes.S (snd st))) S st.

(** include/pctsp/subtour_elimination.hh:133-175 [PCTSPseparateDisjointTour]. *)
Definition separate_disjoint_tour (lib : scip_lib) (g : graph) (m : nat -> option nat)
  (root : nat) (cvs : list (list nat)) (root_id : nat) (st : sepa * nat) : res (sepa * nat) :=
  if Nat.eqb (length cvs) 1 then Ok st
  else
    foldM (fun st id =>
             do S <- vget cvs id;
             if andb (negb (Nat.eqb id root_id)) (Nat.leb 2 (length S))
             then sec_component lib g m root S st else Ok st)
          (seq 0 (length cvs)) st.

(** src/subtour_elimination.cpp:447-452 (the same lines in cycle_cover.hh:91-98): support
    graph, components and the component of the root. *)
Definition support_components (g : graph) (s : sol) (root : nat)
  : res (list (list nat) * nat) :=
  let sg := filter_positive g s in
  do '(comp, n) <- connected_components sg;
  do cvs <- get_connected_components_vectors sg n comp;
  do rid <- vget comp root;
  Ok (cvs, rid).

(** src/subtour_elimination.cpp:430-485 [PCTSPseparateSubtour] with [sec_disjoint_tour] on
    and [sec_maxflow_mincut] off; the second component of the result is the number passed
    to [incrementNumSecDisjointTour]. *)
Definition separate_subtour_disjoint (lib : scip_lib) (g : graph) (s : sol)
  (m : nat -> option nat) (root : nat) (st : sepa) : res (sepa * nat) :=
  do '(cvs, rid) <- support_components g s root;
  separate_disjoint_tour lib g m root cvs rid (st, O).

(** include/pctsp/subtour_elimination.hh:14-27 [getEdgesFromCut]; the parity map has an
    entry for every vertex. *)
Definition get_edges_from_cut (g : graph) (parity : list bool) : res (list nat) :=
  foldM (fun acc e =>
           do uv <- endpoints g e;
           do a <- vget parity (fst uv);
           do b <- vget parity (snd uv);
           Ok (if Bool.eqb a b then acc else acc ++ [e])) (seq 0 (length (ge g))) [].

(** ** tailing off *)

(** src/subtour_elimination.cpp:276-282 [pushIntoRollingLpGapList].  Gaps are doubles that
    are stored and compared, never changed, here; [A] stands for them.  The comparison
    [size() > max] converts [max] to unsigned; it is at least 1 there. *)
Definition push_rolling {A} (l : list A) (gap : A) (mx : Z) : list A :=
  if 1 <=? mx then
    let l' := l ++ [gap] in
    if mx <? Z.of_nat (length l') then tl l' else l'
  else l.

(** src/subtour_elimination.cpp:284-294 [isNodeTailingOff]; [small a b] is the double
    comparison [a - b < sec_lp_gap_improvement_threshold]. *)
Definition is_node_tailing_off {A} (small : A -> A -> bool) (l : list A) (mx : Z) : res bool :=
  if andb (1 <=? mx) (Nat.leb 2 (length l)) then
    match l, rev l with
    | f :: _, b :: _ => Ok (andb (small f b) (Z.of_nat (length l) =? mx))
    | _, _ => UB EmptyList
    end
  else Ok false.
