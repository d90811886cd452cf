(** * Spec_Errors: what the readers of files hold on to, and which exception is due *)
From Coq Require Import String.
From Verif Require Import Base M_Stats M_Events M_Lab.
Open Scope string_scope.
Open Scope list_scope.
Open Scope Z_scope.

Section Y.
Context {D : Type} (read : string -> option D).

(** The file has an integer between [lo] and [hi] under a key. *)
Definition int_field (lo hi : Z) (n : list (string * string)) (k : string) (z : Z) : Prop :=
  exists t, In (k, t) n /\ undec t = Some z /\ lo <= z <= hi.

(** The file has an integer of any size under a key. *)
Definition any_int_field (n : list (string * string)) (k : string) (z : Z) : Prop :=
  exists t, In (k, t) n /\ undec t = Some z.

(** The file has a number under a key. *)
Definition real_field (n : list (string * string)) (k : string) (d : D) : Prop :=
  exists t, In (k, t) n /\ read t = Some d.

(** The file holds the summary; [int32], [uint] and [int64] say how integers are stored. *)
Record holds_summary (int32 uint int64 : list (string * string) -> string -> Z -> Prop)
    (n : list (string * string)) (s : summary D) : Prop := {
  hs_status : int32 n "status" (sm_status s);
  hs_lower : real_field n "lower_bound" (sm_lower s);
  hs_upper : real_field n "upper_bound" (sm_upper s);
  hs_cc_disjoint : uint n "num_cost_cover_disjoint_paths" (sm_cc_disjoint s);
  hs_cc_shortest : uint n "num_cost_cover_shortest_paths" (sm_cc_shortest s);
  hs_pre_disjoint : uint n "nconss_presolve_disjoint_paths" (sm_pre_disjoint s);
  hs_pre_shortest : uint n "nconss_presolve_shortest_paths" (sm_pre_shortest s);
  hs_cycle_cover : uint n "num_cycle_cover" (sm_cycle_cover s);
  hs_nodes : int64 n "num_nodes" (sm_nodes s);
  hs_sec_disjoint : uint n "num_sec_disjoint_tour" (sm_sec_disjoint s);
  hs_sec_maxflow : uint n "num_sec_maxflow_mincut" (sm_sec_maxflow s) }.

(** The summary with two of its numbers exchanged. *)
Definition exchanged (s : summary D) : summary D :=
  mkSummary (sm_status s) (sm_lower s) (sm_upper s) (sm_cc_disjoint s) (sm_pre_disjoint s) (sm_cc_shortest s)
    (sm_pre_shortest s) (sm_cycle_cover s) (sm_nodes s) (sm_sec_disjoint s) (sm_sec_maxflow s).
End Y.

(** A number is what is left of a sum in an [unsigned int]. *)
Definition sum_uint (l : list Z) (z : Z) : Prop :=
  0 <= z < 4294967296 /\ exists k, fold_right Z.add 0 l = z + k * 4294967296.

(** A pair of counters, zero if there is no handler. *)
Definition counters (h : option (Z * Z)) (a b : Z) : Prop :=
  (h = None /\ a = 0 /\ b = 0) \/ h = Some (a, b).

(** The prizes of the stored results, in the order of the vials. *)
Fixpoint stored_prizes (st : nat -> result_file) (vials : list vial) : list Z :=
  match vials with
  | [] => []
  | v :: r => match st (v_uuid v) with ResultFile p => [p] | _ => [] end ++ stored_prizes st r
  end.
