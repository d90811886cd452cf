(** * M_Branching: branching strategies, src/branching.cpp *)
From Coq Require Export String.
From Verif Require Import Base.
Open Scope string_scope.
Open Scope Z_scope.

(** A [SCIP_BRANCHRULE]: the fields the code of branching.cpp reads or writes. *)
Record rule := mkRule { r_name : string; r_priority : Z; r_maxdepth : Z }.

(** branching.cpp:5-9 [BRANCHING_RULE_NAMES]. *)
Definition LEAST_INFEASIBLE : string := "leastinf".
(** branching.cpp:6. *)
Definition MOST_INFEASIBLE : string := "mostinf".
(** branching.cpp:7. *)
Definition FULL_STRONG : string := "fullstrong".
(** branching.cpp:8. *)
Definition PSCOST : string := "pscost".
(** branching.cpp:9. *)
Definition RELPSCOST : string := "relpscost".

(** branching.cpp:11-15 [BranchingStrategy]. *)
Definition S_RELPSCOST : Z := 0.
(** branching.cpp:12. *)
Definition S_STRONG : Z := 1.
(** branching.cpp:13. *)
Definition S_STRONG_AT_TREE_TOP : Z := 2.
(** branching.cpp:14. *)
Definition S_PSCOST : Z := 3.
(** branching.cpp:15. *)
Definition S_DEFAULT : Z := 4.

(** [SCIPsetBranchrulePriority] (library function, called in branching.cpp:67-96): SCIP only
    marks its array as unsorted, so the array read before the loop keeps its order. *)
Definition set_priority (rules : list rule) (i : nat) (p : Z) : res (list rule) :=
  do r <- vget rules i;
  vset rules i (mkRule (r_name r) p (r_maxdepth r)).

(** [SCIPsetBranchruleMaxdepth] (library function, called in branching.cpp:109). *)
Definition set_maxdepth (rules : list rule) (i : nat) (d : Z) : res (list rule) :=
  do r <- vget rules i;
  vset rules i (mkRule (r_name r) (r_priority r) d).

(** [SCIPfindBranchrule] (library function, called in branching.cpp:25,30): position of the first rule with the name. *)
Fixpoint find_rule (rules : list rule) (name : string) : option nat :=
  match rules with
  | [] => None
  | r :: rest => if String.eqb (r_name r) name then Some O else option_map S (find_rule rest name)
  end.

(** branching.cpp:60-73 [setRelpscostBranchingStrategy]. *)
Definition set_relpscost_strategy (rules : list rule) : res (list rule) :=
  foldM (fun rules i =>
           do r <- vget rules i;
           if String.eqb (r_name r) RELPSCOST then set_priority rules i 100000
           else set_priority rules i (-10000)) (seq 0 (List.length rules)) rules.

(** branching.cpp:75-101 [setStrongBranchingStrategy]. *)
Definition set_strong_strategy (rules : list rule) : res (list rule) :=
  foldM (fun rules i =>
           do r <- vget rules i;
           if String.eqb (r_name r) FULL_STRONG then set_priority rules i 4000
           else if String.eqb (r_name r) RELPSCOST then set_priority rules i 3000
           else if String.eqb (r_name r) MOST_INFEASIBLE then set_priority rules i 1000
           else if 3000 <=? r_priority r then set_priority rules i 2500
           else Ok rules) (seq 0 (List.length rules)) rules.

(** branching.cpp:103-110 [setStrongAtTreeTopBranchingStrategy]; [SCIPsetBranchruleMaxdepth]
    of a null pointer is undefined behaviour. *)
Definition set_strong_at_tree_top (rules : list rule) (max_depth : Z) : res (list rule) :=
  do rules <- set_strong_strategy rules;
  match find_rule rules FULL_STRONG with
  | None => UB NullDeref
  | Some i => set_maxdepth rules i max_depth
  end.

(** branching.cpp:112-128 [setBranchingStrategy]; the strategy is an [unsigned int]. *)
Definition set_branching_strategy (strategy max_depth : Z) (rules : list rule) : res (list rule) :=
  if strategy =? S_RELPSCOST then set_relpscost_strategy rules
  else if strategy =? S_STRONG then set_strong_strategy rules
  else if strategy =? S_STRONG_AT_TREE_TOP then set_strong_at_tree_top rules max_depth
  else Ok rules.

(** branching.cpp:130-132: the overload without a depth. *)
Definition set_branching_strategy_default (strategy : Z) (rules : list rule) : res (list rule) :=
  set_branching_strategy strategy (-1) rules.
