(** * M_CycleCover: include/pctsp/cycle_cover.hh and src/cycle_cover.cpp *)
From Verif Require Import Base Graph M_Walk M_Graph M_Solution M_ILP M_Subtour.
Open Scope Z_scope.

(** cycle_cover.hh:13-50 [addCycleCover]: x(E(S)) - y(S) <= -1. *)
Definition add_cycle_cover (lib : scip_lib) (g : graph) (m : nat -> option nat)
  (S : list nat) (st : sepa) : res sepa :=
  match S with
  | [] => Ok st
  | _ =>
      do es <- get_edges_induced g S;
      do evars <- get_edge_variables m es;
      do loops <- get_self_loops g S;
      do vvars <- get_edge_variables m loops;
      let nvars := (length evars + length vvars)%nat in
      do '(vars, coefs) <- fill_positive_negative_vars evars vvars nvars nvars;
      add_row lib vars coefs None (Some (-1)) st
  end.

(** cycle_cover.hh:83-100 [getRootComponent]. *)
Definition get_root_component (g : graph) (s : sol) (root : nat) : res (list nat) :=
  do '(cvs, rid) <- support_components g s root; vget cvs rid.

(** cycle_cover.hh:102-116 [isCycleCoverViolated]. *)
Definition is_cycle_cover_violated (g : graph) (p : list Z) (quota : Z) (root : nat) (s : sol)
  : res bool :=
  do S <- get_root_component g s root;
  do f <- is_prize_feasible p quota S;
  Ok (negb f).

(** src/cycle_cover.cpp:111-120 [CycleCoverConshdlr::scip_check]. *)
Definition cycle_cover_check (g : graph) (p : list Z) (quota : Z) (root : nat) (s : sol)
  : res scip_result :=
  do v <- is_cycle_cover_violated g p quota root s;
  Ok (if v : bool then Infeasible else Feasible).

(** cycle_cover.hh:122-141 [separateCycleCover]. *)
Definition separate_cycle_cover (lib : scip_lib) (g : graph) (m : nat -> option nat)
  (p : list Z) (quota : Z) (root : nat) (s : sol) (st : sepa) : res sepa :=
  do S <- get_root_component g s root;
  do f <- is_prize_feasible p quota S;
  if f : bool then Ok st else add_cycle_cover lib g m S st.

(** src/cycle_cover.cpp:144-149 [CycleCoverConshdlr::scip_sepalp]; the second component is
    [_num_conss_added].  [result] keeps the value SCIP passed in when no row is added. *)
Definition cycle_cover_sepalp (lib : scip_lib) (g : graph) (m : nat -> option nat)
  (p : list Z) (quota : Z) (root : nat) (s : sol) (st : sepa * Z) : res (sepa * Z) :=
  do st' <- separate_cycle_cover lib g m p quota root s (fst st);
  Ok (st', match sp_result st' with
           | Cutoff | Separated => snd st + 1
           | _ => snd st
           end).
