(** * Spec_Rename: renamings, and what a caller of the bindings means by its arguments *)
From Verif Require Import Base Graph Spec.
Open Scope nat_scope.

(** The end points of a list of edges in the order in which they are written. *)
Definition ends (es : list (nat * nat)) : list nat := flat_map (fun p => [fst p; snd p]) es.

(** [labels] lists the elements of [l] once each, in the order of first appearance. *)
Definition first_appearance (l labels : list nat) : Prop :=
  NoDup labels /\ (forall x, In x labels <-> In x l) /\
  forall i j a b, nth_error labels i = Some a -> nth_error labels j = Some b -> i < j ->
    exists before after, l = before ++ a :: after /\ ~ In b before.

(** [w] is [W] with every vertex replaced by its position in [labels]. *)
Definition renamed (labels : list nat) (w W : list nat) : Prop :=
  Forall2 (fun a u => nth_error labels a = Some u) w W.

(** The costs, by position in the edge list, that a dictionary gives; edges without an entry
    cost 0 (with parallel edges an entry is about the first). *)
Definition costs_given (G : graph) (dict : list ((nat * nat) * Z)) (c : list Z) : Prop :=
  length c = length (ge G) /\
  (forall u v x, In ((u, v), x) dict -> exists e, step_edge G u v e /\ nth_error c e = Some x) /\
  (forall e, e < length (ge G) ->
     (forall u v x, In ((u, v), x) dict -> ~ step_edge G u v e) -> nth_error c e = Some 0%Z).

(** The prizes, by label, that a dictionary about end points of edges gives. *)
Definition prizes_given (G : graph) (dict : list (nat * Z)) (p : list Z) : Prop :=
  length p = gn G /\
  (forall v x, In (v, x) dict -> In v (ends (ge G)) /\ nth_error p v = Some x) /\
  (forall v, In v (ends (ge G)) -> (forall x, ~ In (v, x) dict) -> nth_error p v = Some 0%Z).

(** The edges have [n] different end points. *)
Definition vertex_count (es : list (nat * nat)) (n : nat) : Prop :=
  exists vs, NoDup vs /\ (forall v, In v vs <-> In v (ends es)) /\ length vs = n.

(** A call with the edges of [G], whose dictionaries give the costs [c] and the prizes [p];
    there are [n] vertices. *)
Definition call_with (G : graph) (cost_dict : list ((nat * nat) * Z)) (prize_dict : list (nat * Z))
  (c p : list Z) (n : nat) : Prop :=
  graph_ok G /\ costs_given G cost_dict c /\ prizes_given G prize_dict p /\ vertex_count (ge G) n.
