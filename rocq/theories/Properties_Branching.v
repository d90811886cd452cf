(** * Properties_Branching: branching strategies (C24) and logging levels (C25) *)
From Verif Require Import Base P_Base M_Branching M_Logger Spec_Branching P_Branching.
From Verif Require M_Compare.
Open Scope string_scope.
Open Scope list_scope.
Open Scope Z_scope.

(** RELPSCOST: the rules and their depth limits stay, and relpscost gets a strictly higher
    priority than every other rule. *)
Theorem C24_relpscost_first : forall max_depth rules, exists rules',
  set_branching_strategy S_RELPSCOST max_depth rules = Ok rules' /\ same_rules rules rules' /\
  (forall r depth, In r rules -> r_name r = RELPSCOST -> usable depth r ->
     exists r', r_name r' = RELPSCOST /\ first_choice rules' depth r').
Proof.
  intros. exists (map relps_rule rules). split; [apply set_relpscost_eq|]. split; [apply relps_same|].
  intros r depth H1 H2 H3. exact (relps_first rules r H1 H2 depth H3).
Qed.
Print Assumptions C24_relpscost_first.

(** STRONG: same rules and depth limits; fullstrong strictly before all others, relpscost
    strictly before all others except fullstrong. *)
Theorem C24_strong_order : forall max_depth rules, exists rules',
  set_branching_strategy S_STRONG max_depth rules = Ok rules' /\ same_rules rules rules' /\
  (forall r r', In r rules' -> In r' rules' -> r_name r = FULL_STRONG -> r_name r' <> FULL_STRONG ->
     r_priority r' < r_priority r) /\
  (forall r r', In r rules' -> In r' rules' -> r_name r = RELPSCOST ->
     r_name r' <> FULL_STRONG -> r_name r' <> RELPSCOST -> r_priority r' < r_priority r).
Proof.
  intros. exists (map strong_rule rules). split; [apply set_strong_eq|]. split; [apply strong_same|]. split.
  - intros r r' H H' E E'. apply (strong_order rules); auto. congruence.
  - intros r r' H H' E E' E2. apply (strong_order rules); auto. congruence.
Qed.
Print Assumptions C24_strong_order.

(** STRONG_AT_TREE_TOP: the depth limit of fullstrong becomes [max_depth], no other limit
    changes; fullstrong is called first down to that depth, relpscost first below it. *)
Theorem C24_tree_top : forall max_depth rules,
  NoDup (map r_name rules) -> In FULL_STRONG (map r_name rules) ->
  exists rules',
  set_branching_strategy S_STRONG_AT_TREE_TOP max_depth rules = Ok rules' /\
  Forall2 (fun r r' => r_name r' = r_name r /\
     (r_name r = FULL_STRONG -> r_maxdepth r' = max_depth) /\
     (r_name r <> FULL_STRONG -> r_maxdepth r' = r_maxdepth r)) rules rules' /\
  (forall depth, max_depth = -1 \/ depth <= max_depth ->
     exists r, r_name r = FULL_STRONG /\ first_choice rules' depth r) /\
  (forall depth r, max_depth <> -1 -> max_depth < depth ->
     In r rules -> r_name r = RELPSCOST -> usable depth r ->
     exists r', r_name r' = RELPSCOST /\ first_choice rules' depth r').
Proof.
  intros d rules Hnd Hin. exists (map (top_rule d) (map strong_rule rules)).
  split; [apply set_top_eq; auto|]. split.
  - apply top_depth_spec.
  - apply in_map_iff in Hin as [q [Hq Hq']]. split.
    + intros depth Hd. now apply (top_first rules d q).
    + intros depth r H1 H2 H3 H4 H5. now apply (top_second rules d r).
Qed.
Print Assumptions C24_tree_top.

(** Every other strategy number, in particular DEFAULT, leaves the rules alone. *)
Theorem C24_other_strategies_unchanged : forall strategy max_depth rules,
  strategy <> S_RELPSCOST -> strategy <> S_STRONG -> strategy <> S_STRONG_AT_TREE_TOP ->
  set_branching_strategy strategy max_depth rules = Ok rules.
Proof.
  intros s d l H1 H2 H3. unfold set_branching_strategy.
  destruct (Z.eqb_spec s S_RELPSCOST); [contradiction|].
  destruct (Z.eqb_spec s S_STRONG); [contradiction|].
  destruct (Z.eqb_spec s S_STRONG_AT_TREE_TOP); [contradiction|reflexivity].
Qed.
Print Assumptions C24_other_strategies_unchanged.

(** Without a depth STRONG_AT_TREE_TOP is STRONG at every depth. *)
Theorem C24_default_depth : forall rules,
  NoDup (map r_name rules) -> In FULL_STRONG (map r_name rules) ->
  exists rules', set_branching_strategy_default S_STRONG_AT_TREE_TOP rules = Ok rules' /\
  forall depth, exists r, r_name r = FULL_STRONG /\ first_choice rules' depth r.
Proof.
  intros rules H1 H2. destruct (C24_tree_top (-1) rules H1 H2) as (l & E & _ & F & _).
  exists l. split; [exact E|]. intro depth. apply F. now left.
Qed.
Print Assumptions C24_default_depth.

(** SCIP with its default rules. *)
Definition scip_rules : list rule :=
  [mkRule "relpscost" 10000 (-1); mkRule "pscost" 2000 (-1); mkRule "inference" 1000 (-1);
   mkRule "mostinf" 100 (-1); mkRule "leastinf" 50 (-1); mkRule "fullstrong" 0 (-1);
   mkRule "lookahead" 5000 7; mkRule "random" (-100000) (-1)].
Example C24_case :
  NoDup (map r_name scip_rules) /\ In FULL_STRONG (map r_name scip_rules) /\
  In (mkRule RELPSCOST 10000 (-1)) scip_rules /\ usable 9 (mkRule RELPSCOST 10000 (-1)) /\
  set_branching_strategy S_STRONG_AT_TREE_TOP 3 scip_rules = Ok
    [mkRule "relpscost" 3000 (-1); mkRule "pscost" 2000 (-1); mkRule "inference" 1000 (-1);
     mkRule "mostinf" 1000 (-1); mkRule "leastinf" 50 (-1); mkRule "fullstrong" 4000 3;
     mkRule "lookahead" 2500 7; mkRule "random" (-100000) (-1)].
Proof.
  split. { repeat constructor; cbn; intuition discriminate. }
  split; [cbn; auto 10|]. split; [cbn; auto|]. split; [now left|reflexivity].
Qed.

(** The rules of SCIP 8 that branching.cpp names, and the number of each strategy. *)
Definition rules_of_scip : list string := ["leastinf"; "mostinf"; "fullstrong"; "pscost"; "relpscost"].
Definition strategy_numbers : list Z := [0; 1; 2; 3; 4].

(** The names of the rules are those of SCIP, and the numbers that Python sends for RELPSCOST, STRONG_AT_TREE_TOP and DEFAULT are
    those of C++. *)
Theorem C24_names :
  [LEAST_INFEASIBLE; MOST_INFEASIBLE; FULL_STRONG; PSCOST; RELPSCOST] = rules_of_scip /\
  [S_RELPSCOST; S_STRONG; S_STRONG_AT_TREE_TOP; S_PSCOST; S_DEFAULT] = strategy_numbers /\
  M_Compare.relpscost = S_RELPSCOST /\ M_Compare.strong_at_tree_top = S_STRONG_AT_TREE_TOP /\
  M_Compare.default_branching = S_DEFAULT.
Proof. split; [reflexivity|]. split; [reflexivity|]. split; [reflexivity|]. split; reflexivity. Qed.
Print Assumptions C24_names.

(** PSCOST selects nothing: pscost may stay behind another rule. *)
Theorem C24_pscost_refuted : exists max_depth rules,
  In PSCOST (map r_name rules) /\
  exists rules', set_branching_strategy S_PSCOST max_depth rules = Ok rules' /\
  exists r, r_name r <> PSCOST /\ first_choice rules' 0 r.
Proof.
  exists (-1), scip_rules. split; [cbn; auto|]. exists scip_rules. split; [reflexivity|].
  exists (mkRule "relpscost" 10000 (-1)). split; [discriminate|]. split; [cbn; auto|]. split; [now left|].
  intros r' H _ Hne. cbn in H. cbn in Hne.
  repeat (destruct H as [<-|H]; [cbn in *; try lia; try congruence|]). contradiction.
Qed.
Print Assumptions C24_pscost_refuted.

(** The tree top strategy without fullstrong installed uses a null pointer. *)
Theorem C24_fullstrong_missing_refuted : exists max_depth rules,
  rules <> [] /\ set_branching_strategy S_STRONG_AT_TREE_TOP max_depth rules = UB NullDeref.
Proof. exists 3, [mkRule "relpscost" 10000 (-1)]. split; [discriminate|reflexivity]. Qed.
Print Assumptions C24_fullstrong_missing_refuted.

(** Exactly then. *)
Theorem C24_fullstrong_needed : forall max_depth rules, ~ In FULL_STRONG (map r_name rules) ->
  set_branching_strategy S_STRONG_AT_TREE_TOP max_depth rules = UB NullDeref.
Proof. intros. now apply set_top_missing. Qed.
Print Assumptions C24_fullstrong_needed.

(** branching.cpp:94 says that rules of high priority are executed third: a rule of priority
    2999 keeps it and so overtakes a rule that had more. *)
Theorem C24_third_place_refuted : exists max_depth rules rules' a b a' b',
  NoDup (map r_name rules) /\ set_branching_strategy S_STRONG max_depth rules = Ok rules' /\
  In a rules /\ In b rules /\ In a' rules' /\ In b' rules' /\ r_name a' = r_name a /\ r_name b' = r_name b /\
  3000 <= r_priority a /\ r_priority b < r_priority a /\ r_priority a' < r_priority b'.
Proof.
  exists (-1), [mkRule "lookahead" 5000 (-1); mkRule "cloud" 2999 (-1)]. eexists.
  exists (mkRule "lookahead" 5000 (-1)), (mkRule "cloud" 2999 (-1)),
         (mkRule "lookahead" 2500 (-1)), (mkRule "cloud" 2999 (-1)).
  split. { repeat constructor; cbn; intuition discriminate. }
  split; [reflexivity|]. cbn. intuition lia.
Qed.
Print Assumptions C24_third_place_refuted.

(** ** C25 *)

(** The levels of python and the severity written for a message of that level. *)
Definition levels : list (Z * Z) :=
  [(0, trace); (10, debug); (20, info); (30, warning); (40, error); (50, fatal)].

(** With one of the six levels, a message is shown exactly if python would show a message of
    the corresponding level: its level is at least the one set. *)
Theorem C25_shown_like_python : forall set msg b sev,
  In (set, b) levels -> In (msg, sev) levels ->
  boost_level_from_py set = b /\
  (shown (boost_level_from_py set) sev = true <-> set <= msg).
Proof.
  intros s m b v H H'. cbn in H, H'.
  repeat (destruct H as [H|H]; [injection H as <- <-; repeat (destruct H' as [H'|H'];
    [injection H' as <- <-; split; [reflexivity|]; unfold shown, boost_level_from_py; cbn; split; intro; try lia; try reflexivity; try discriminate|]); contradiction|]).
  contradiction.
Qed.
Print Assumptions C25_shown_like_python.

(** The severities are the numbers of boost's enumeration, which begins with trace and ends with fatal. *)
Theorem C25_boost_numbers : map (fun l => boost_level_from_py (fst l)) levels = [0; 1; 2; 3; 4; 5] /\ map snd levels = [0; 1; 2; 3; 4; 5].
Proof. split; reflexivity. Qed.
Print Assumptions C25_boost_numbers.

(** Any other integer means info. *)
Theorem C25_other_levels : forall set, ~ In set (map fst levels) ->
  forall sev, shown (boost_level_from_py set) sev = true <-> info <= sev.
Proof.
  intros s H sev. unfold boost_level_from_py, py_CRITICAL, py_ERROR, py_WARNING, py_INFO, py_DEBUG, py_NOTSET.
  assert (s <> 0 /\ s <> 10 /\ s <> 20 /\ s <> 30 /\ s <> 40 /\ s <> 50) by (cbn in H; lia).
  replace (s =? 50) with false by lia. replace (s =? 40) with false by lia.
  replace (s =? 30) with false by lia. replace (s =? 20) with false by lia.
  replace (s =? 10) with false by lia. replace (s =? 0) with false by lia.
  unfold shown. lia.
Qed.
Print Assumptions C25_other_levels.
Example C25_case : ~ In 25 (map fst levels) /\ boost_level_from_py 25 = info /\
  shown (boost_level_from_py 30) error = true /\ shown (boost_level_from_py 30) info = false.
Proof. cbn. intuition lia. Qed.

(** The mapping is not monotone on all integers: 45 shows more than 30 does, although python
    would show less. *)
Theorem C25_monotone_refuted : exists set set' sev,
  set < set' /\ shown (boost_level_from_py set) sev = false /\ shown (boost_level_from_py set') sev = true.
Proof. exists 30, 45, info. repeat split. Qed.
Print Assumptions C25_monotone_refuted.
