(** * Spec_Stats: reading CSV files, increments of counters, intervals of time *)
From Coq Require Export String Ascii.
From Verif Require Import Base M_Stats M_Events.
Open Scope string_scope.
Open Scope list_scope.
Open Scope Z_scope.

(** The pieces of a text between the occurrences of a character. *)
Fixpoint split (c : ascii) (s : string) : list string :=
  match s with
  | "" => [""]
  | String a s => if Ascii.eqb a c then "" :: split c s
                  else match split c s with
                       | [] => [String a ""]
                       | p :: ps => String a p :: ps
                       end
  end%string.

(** A CSV file: lines ended by a newline, the first of them the names of the columns, every
    other line with as many fields.  A record is the list of its fields with their names. *)
Definition read_csv (text : string) : option (list (list (string * string))) :=
  match rev (split (ascii_of_nat 10) text) with
  | last :: lines =>
      match last, map (split ","%char) (rev lines) with
      | ""%string, header :: rows =>
          if forallb (fun r => Nat.eqb (List.length r) (List.length header)) rows
          then Some (map (combine header) rows) else None
      | _, _ => None
      end
  | [] => None
  end.

(** No separators in a text. *)
Definition clean (s : string) : Prop :=
  Forall (fun c => c <> ","%char /\ c <> ascii_of_nat 10) (list_ascii_of_string s).

Section S.
Context {D : Type}.

(** The record a node of the tree should have. *)
Definition node_record (show : D -> string) (n : node_stats D) : list (string * string) :=
  [("lower_bound", show (ns_lower n)); ("node_id", dec (ns_id n));
   ("num_sec_disjoint_tour", dec (ns_sec_disjoint n));
   ("num_sec_maxflow_mincut", dec (ns_sec_maxflow n));
   ("num_cost_cover_disjoint_paths", dec (ns_cc_disjoint n));
   ("num_cost_cover_shortest_paths", dec (ns_cc_shortest n));
   ("num_cost_cover_steiner_tree", dec (ns_cc_steiner n));
   ("parent_id", dec (ns_parent n)); ("upper_bound", show (ns_upper n))]%string.

(** The record of an interval. *)
Definition bounds_record (show : D -> string) (stamp : Z -> string) (b : bounds D)
  : list (string * string) :=
  [("start_timestamp", stamp (b_start b)); ("end_timestamp", stamp (b_end b));
   ("lower_bound", show (b_lower b)); ("upper_bound", show (b_upper b));
   ("node_id", dec (b_node b))]%string.

(** The fields have values of their C++ types. *)
Definition summary_ok (s : summary D) : Prop :=
  -2147483648 <= sm_status s <= 2147483647 /\
  (0 <= sm_cc_disjoint s <= 4294967295 /\ 0 <= sm_cc_shortest s <= 4294967295 /\
   0 <= sm_pre_disjoint s <= 4294967295 /\ 0 <= sm_pre_shortest s <= 4294967295 /\
   0 <= sm_cycle_cover s <= 4294967295 /\ 0 <= sm_sec_disjoint s <= 4294967295 /\
   0 <= sm_sec_maxflow s <= 4294967295) /\
  -9223372036854775808 <= sm_nodes s <= 9223372036854775807.

(** ** Events *)

(** What SCIP guarantees: numbers of nodes start at 1 (and fit into an unsigned int), only the
    root has no parent, and cuts are counted at a node number not above all announced ones. *)
Fixpoint scip_events (seen : Z) (es : list (event D)) : Prop :=
  match es with
  | [] => True
  | NodeEvent n :: es => 1 <= nd_id n < 4294967296 /\ (1 < nd_id n -> nd_parent n <> None) /\
                         scip_events (Z.max seen (nd_id n)) es
  | IncDisjoint id _ :: es | IncMaxflow id _ :: es => 1 <= id <= seen /\ scip_events seen es
  end.

(** The node events of a run. *)
Fixpoint node_events (es : list (event D)) : list (node D) :=
  match es with
  | [] => []
  | NodeEvent n :: es => n :: node_events es
  | _ :: es => node_events es
  end.

(** The largest number announced. *)
Fixpoint max_id (es : list (event D)) : Z :=
  match es with
  | [] => 0
  | NodeEvent n :: es => Z.max (nd_id n) (max_id es)
  | _ :: es => max_id es
  end.

(** Cuts counted at one node, and at all nodes. *)
Fixpoint disjoint_at (id : Z) (es : list (event D)) : Z :=
  match es with
  | [] => 0
  | IncDisjoint i k :: es => (if i =? id then k else 0) + disjoint_at id es
  | _ :: es => disjoint_at id es
  end.
Fixpoint maxflow_at (id : Z) (es : list (event D)) : Z :=
  match es with
  | [] => 0
  | IncMaxflow i k :: es => (if i =? id then k else 0) + maxflow_at id es
  | _ :: es => maxflow_at id es
  end.
Fixpoint disjoint_total (es : list (event D)) : Z :=
  match es with
  | [] => 0
  | IncDisjoint _ k :: es => k + disjoint_total es
  | _ :: es => disjoint_total es
  end.
Fixpoint maxflow_total (es : list (event D)) : Z :=
  match es with
  | [] => 0
  | IncMaxflow _ k :: es => k + maxflow_total es
  | _ :: es => maxflow_total es
  end.

(** An event at [n] makes the handler write the entry of [n]: no larger number was announced
    before it. *)
Definition writes (before : list (event D)) (n : node D) : Prop :=
  forall m, In m (node_events before) -> nd_id m <= nd_id n.

(** No entry is written after cuts were counted in it. *)
Definition never_rewritten (es : list (event D)) : Prop :=
  forall before n after, es = before ++ NodeEvent n :: after -> writes before n ->
    disjoint_at (nd_id n) before = 0 /\ maxflow_at (nd_id n) before = 0.

(** The clock readings of a run, in order. *)
Definition readings (t0 : Z) (es : list (lp_event D)) : list Z :=
  t0 :: flat_map (fun e => [lp_now1 e; lp_now2 e]) es.
(** A clock that never goes back. *)
Definition monotone (l : list Z) : Prop := forall i j a b,
  (i <= j)%nat -> nth_error l i = Some a -> nth_error l j = Some b -> a <= b.
End S.

(** The fraction of a second a text of decimal digits stands for behind the point, as a
    numerator over a power of ten. *)
Definition same_fraction (a b : string) : Prop :=
  exists x y, undec a = Some x /\ undec b = Some y /\
    x * 10 ^ Z.of_nat (String.length b) = y * 10 ^ Z.of_nat (String.length a).
Definition smaller_fraction (a b : string) : Prop :=
  exists x y, undec a = Some x /\ undec b = Some y /\
    x * 10 ^ Z.of_nat (String.length b) < y * 10 ^ Z.of_nat (String.length a).

(** The entry of a node with these numbers of cuts. *)
Definition entry_of {D} (n : node D) (disjoint maxflow : Z) (s : node_stats D) : Prop :=
  ns_lower s = nd_lower n /\ ns_upper s = nd_upper n /\ ns_id s = nd_id n /\
  ns_sec_disjoint s = disjoint /\ ns_sec_maxflow s = maxflow /\
  ns_cc_disjoint s = 0 /\ ns_cc_shortest s = 0 /\ ns_cc_steiner s = 0 /\
  (nd_id n = 1 -> ns_parent s = 1) /\
  (1 < nd_id n -> forall p, nd_parent n = Some p -> 0 <= p < 4294967296 -> ns_parent s = p).
