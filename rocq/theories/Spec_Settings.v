(** * Spec_Settings: what SCIP should be told, for the settings of a run *)
From Coq Require Import String QArith Qabs.
From Verif Require Import Base M_Branching M_Solve M_RunAlg M_Logger M_Plugins M_Settings Spec_PyWrap Spec_Branching Spec_Plugins.
Open Scope string_scope.
Open Scope list_scope.
Open Scope Z_scope.

(** ** Numbers *)

(** The number that is meant. *)
Definition num (x : dyadic) : Q := inject_Z (dy_m x) * (2#1) ^ dy_e x.

(** The numbers with 24 binary digits. *)
Definition float_number (q : Q) : Prop := exists m e, (Z.abs m <= 2 ^ 24)%Z /\ (q == inject_Z m * (2#1) ^ e)%Q.

(** The last of the 24 digits is 0. *)
Definition last_digit_0 (q : Q) : Prop :=
  exists m e, (2 ^ 23 <= Z.abs m <= 2 ^ 24)%Z /\ Z.Even m /\ (q == inject_Z m * (2#1) ^ e)%Q.

(** The one nearest to [q]; if there are two, the one whose last digit is 0. *)
Definition nearest (q f : Q) : Prop :=
  float_number f /\
  (forall y, float_number y -> Qabs (q - f) <= Qabs (q - y))%Q /\
  forall y, float_number y -> (Qabs (q - f) == Qabs (q - y))%Q -> ~ (y == f)%Q -> last_digit_0 f.

(** ** Settings *)

(** All numbers are there and fit their types. *)
Definition numbers_given (ps : py_settings) : Prop :=
  (exists z, ps_max_depth ps = Some z /\ fits_int z) /\
  (exists z, ps_strategy ps = Some z /\ 0 <= z <= 2 * int_max + 1) /\
  (exists z, ps_level ps = Some z /\ fits_int z) /\ ps_gap ps <> None /\
  (exists z, ps_tailing ps = Some z /\ fits_int z) /\ (exists z, ps_sepafreq ps = Some z /\ fits_int z) /\ ps_time ps <> None.

(** The rules a run may branch with: SCIP's, or with simple rules the three of this code. *)
Definition rules_offered (defaults : list rule) (simple : bool) : list rule :=
  if simple then [mkRule "fullstrong" 0 (-1); mkRule "relpscost" 10000 (-1); mkRule "mostinf" 100 (-1)] else defaults.

(** SCIP's rules: each name once; full strong and reliability branching are there, for all depths. *)
Definition good_rules (l : list rule) : Prop :=
  NoDup (map r_name l) /\ (exists p, In (mkRule "fullstrong" p (-1)) l) /\ (exists p, In (mkRule "relpscost" p (-1)) l).

(** The rule that a strategy (0: reliability, 1: strong, 2: strong at the top of the tree) calls first at a depth. *)
Definition rule_meant (strategy limit depth : Z) : string :=
  if strategy =? 0 then "relpscost"
  else if strategy =? 1 then "fullstrong"
  else if (limit =? -1) || (depth <=? limit) then "fullstrong" else "relpscost".

(** SCIP stops after the time [t] (rounded), if that is a limit it takes; otherwise it goes on (1e20 seconds). *)
Definition stops_after (t limit : dyadic) : Prop :=
  exists f, nearest (num t) f /\
  ((0 <= f <= inject_Z (10 ^ 20))%Q -> (num limit == f)%Q) /\
  (~ (0 <= f <= inject_Z (10 ^ 20))%Q -> (num limit == inject_Z (10 ^ 20))%Q).

(** Everything in its place. *)
Record arrived (dist : list (nat * Z)) (ps : py_settings) (sv : solver) : Prop := {
  ar_name : sv_name sv = ps_name ps;
  ar_dir : sv_dir sv = ps_dir ps;
  ar_level : exists l, ps_level ps = Some l /\ sv_log sv = boost_level_from_py l;
  ar_gap : ps_gap ps = Some (sv_gap sv);
  ar_tailing : ps_tailing ps = Some (po_tailing (sv_options sv));
  ar_sepafreq : ps_sepafreq ps = Some (po_sepafreq (sv_options sv));
  ar_simple : po_simple (sv_options sv) = true <-> ps_simple ps = Some true;
  ar_disjoint_paths : fl_disjoint_paths (po_flags (sv_options sv)) = true <-> ps_cc_disjoint ps = Some true /\ dist <> [];
  ar_shortest_path : fl_shortest_path (po_flags (sv_options sv)) = true <-> ps_cc_shortest ps = Some true;
  ar_cycle_cover : fl_cycle_cover (po_flags (sv_options sv)) = true <-> ps_cycle_cover ps = Some true;
  ar_sec_disjoint : fl_sec_disjoint (po_flags (sv_options sv)) = true <-> ps_sec_disjoint ps = Some true;
  ar_sec_maxflow : fl_sec_maxflow (po_flags (sv_options sv)) = true <-> ps_maxflow ps = Some true;
  ar_presolving : sv_maxrounds sv = 0;
  ar_time : exists t, ps_time ps = Some t /\ stops_after t (sv_time sv) }.

(** The rules are the ones offered, and the strategy decides which is first. Strategies from 3 on decide nothing. *)
Record branching_arrived (defaults : list rule) (ps : py_settings) (sv : solver) : Prop := {
  br_names : map r_name (sv_rules sv) = map r_name (rules_offered defaults (po_simple (sv_options sv)));
  br_first : forall strategy limit depth, ps_strategy ps = Some strategy -> ps_max_depth ps = Some limit -> strategy <= 2 ->
    exists r, r_name r = rule_meant strategy limit depth /\ first_choice (sv_rules sv) depth r;
  br_other : forall strategy, ps_strategy ps = Some strategy -> 3 <= strategy ->
    sv_rules sv = rules_offered defaults (po_simple (sv_options sv)) }.
