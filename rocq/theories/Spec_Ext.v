(** * Spec_Ext: which path replacement a round of path extension makes *)
From Verif Require Import Base Graph Spec M_Float.
Open Scope nat_scope.

(** The unitary loss of replacing the path [internal] by [cand]: the increase of the cost
    divided by the (positive) increase of the prize, in binary32. *)
Definition unit_loss (g : graph) (c p : list Z) (internal cand : list nat) (l : float32) : Prop :=
  exists ip ep ic ec, prize_sum p internal ip /\ prize_sum p cand ep /\ (ip < ep)%Z /\
    walk_cost g c internal ic /\ walk_cost g c cand ec /\
    l = f_div (f_of_int (ec - ic)) (f_of_int (ep - ip)).

(** [w] goes from [x] to [v] through vertices outside [t] and no such walk has fewer steps. *)
Definition shortest_outside (g : graph) (t : list nat) (x v : nat) (w : list nat) : Prop :=
  is_walk g w /\ NoDup w /\ path_via (fun u => ~ In u t) x v w /\
  dist g (fun u => ~ In u t) x (length w - 1) v.

(** The paths from [x] to [y] considered as replacements for [internal].  Depth limit 2: all
    paths through one outside vertex.  Above 2: for every outside neighbour [v] of [y] within
    [depth - 1] steps of [x], one shortest outside path to [v], then [y]; such a path may be
    left out if it does not increase the prize. *)
Definition detours (g : graph) (p : list Z) (t internal : list nat) (x y : nat) (depth : Z)
  (cs : list (list nat)) : Prop :=
  ((depth < 2)%Z -> cs = []) /\
  (depth = 2%Z -> forall path, In path cs <->
     exists u, path = [x; u; y] /\ ~ In u t /\ is_edge g x u /\ is_edge g u y) /\
  ((2 < depth)%Z ->
     (forall path, In path cs -> exists w v, path = w ++ [y] /\ shortest_outside g t x v w /\
        ~ In v t /\ is_edge g v y /\ (Z.of_nat (length w - 1) <= depth - 1)%Z) /\
     (forall v d, ~ In v t -> is_edge g v y -> within g (fun u => ~ In u t) x d v ->
        (Z.of_nat d <= depth - 1)%Z ->
        exists w, shortest_outside g t x v w /\
          (In (w ++ [y]) cs \/ ~ increases_prize p internal (w ++ [y])))).

(** The best replacement [o] of the [step] edges of the tour after position [i]: a path of
    least loss among those that increase the prize; [None] if there is no such path, or the
    edges would pass over the end of the tour. *)
Definition option_at (g : graph) (c p : list Z) (t : list nat) (step : nat) (depth : Z) (i : nat)
  (o : option (float32 * list nat)) : Prop :=
  (length t - 1 < i + step /\ o = None) \/
  exists A x M y B cs, t = A ++ x :: M ++ y :: B /\ length A = i /\ S (length M) = step /\
    detours g p t (x :: M ++ [y]) x y depth cs /\
    match o with
    | None => forall cand, In cand cs -> ~ increases_prize p (x :: M ++ [y]) cand
    | Some (l, path) => In path cs /\ unit_loss g c p (x :: M ++ [y]) path l /\
        forall cand l', In cand cs -> unit_loss g c p (x :: M ++ [y]) cand l' -> f_lt l' l = false
    end.

(** The best replacements at all positions of the tour. *)
Definition options (g : graph) (c p : list Z) (step : nat) (depth : Z) (t : list nat)
  (os : list (option (float32 * list nat))) : Prop :=
  length os = length t - 1 /\
  forall i o, nth_error os i = Some o -> option_at g c p t step depth i o.

(** The losses of the positions that have a replacement. *)
Fixpoint losses (os : list (option (float32 * list nat))) : list float32 :=
  match os with
  | [] => []
  | Some (x, _) :: os' => x :: losses os'
  | None :: os' => losses os'
  end.

Definition mean_loss (os : list (option (float32 * list nat))) : float32 :=
  f_div (fold_left f_add (losses os) f_zero) (f_of_int (Z.of_nat (length (losses os)))).

(** Position [i] has the least loss of all, and is the first such. *)
Definition least (os : list (option (float32 * list nat))) (i : nat) (x : float32) (path : list nat) : Prop :=
  nth_error os i = Some (Some (x, path)) /\
  forall i' y q, nth_error os i' = Some (Some (y, q)) -> f_lt y x = false /\ (i' < i -> f_lt x y = true).

(** The tour with the [step] edges after position [i] replaced by [path]. *)
Definition replaced (t : list nat) (step i : nat) (path : list nat) : list nat :=
  firstn i t ++ path ++ skipn (S (i + step)) t.

(** [k] replacements, each the least one at its tour and with a loss allowed by [ok]. *)
Inductive replacements (g : graph) (c p : list Z) (step : nat) (depth : Z) (ok : float32 -> Prop)
  : nat -> list nat -> list nat -> Prop :=
| rep_done : forall t, replacements g c p step depth ok 0 t t
| rep_step : forall k t t' os i x path, step < length t - 1 ->
    options g c p step depth t os -> least os i x path -> ok x ->
    replacements g c p step depth ok k (replaced t step i path) t' ->
    replacements g c p step depth ok (S k) t t'.

(** No further replacement: the tour is too short for the step size, or nothing can be
    replaced, or the least loss is not allowed. *)
Definition finished (g : graph) (c p : list Z) (step : nat) (depth : Z) (ok : float32 -> Prop)
  (t : list nat) : Prop :=
  length t - 1 <= step \/
  exists os, options g c p step depth t os /\
    ((forall o, In o os -> o = None) \/ exists i x path, least os i x path /\ ~ ok x).
