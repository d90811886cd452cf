(** * M_Gain: extension of a tour by unitary gain.
    /repo/include/pctsp/heuristic.hh:359-580 and /repo/src/heuristic.cpp:9-14 *)
From Verif Require Import Base Graph M_Walk M_Float.
Open Scope Z_scope.

(** heuristic.hh:28-31 [ExtensionVertex]: the value, and the index, where [None] is the
    value of an [int] that was never written (heuristic.hh:377, copied at 414).
    Simplification: copying that indeterminate [int] (formally already undefined) is let
    pass; using it is [UB Uninit].  Indices are [nat]: tours shorter than 2^31. *)
Definition gain_entry : Type := float32 * option nat.

(** src/heuristic.cpp:9-14 [unitaryGain]. *)
Definition unitary_gain (prize_v cost_uw cost_uv cost_vw : Z) : res float32 :=
  do s <- chk (cost_uv + cost_vw);
  do d <- chk (s - cost_uw);
  Ok (f_div (f_of_int prize_v) (f_of_int d)).

(** heuristic.hh:397-407: the test of one insertion position. *)
Definition gain_try (c : list Z) (prize : Z) (i : nat) (uv vw : option nat) (euw : nat)
  (best : gain_entry) : res gain_entry :=
  match uv, vw with
  | Some euv, Some evw =>
      do cuv <- cost_of c euv;
      do cvw <- cost_of c evw;
      do cuw <- cost_of c euw;
      do x <- unitary_gain prize cuw cuv cvw;
      Ok (if f_lt (fst best) x then (x, Some i) else best)
  | _, _ => Ok best
  end.

(** heuristic.hh:378-411: the loop over the edges of the tour; [u] is the vertex before
    [rest], [i] the index of [u], [best] the pair [max_gain], [index_of_extension]. *)
Fixpoint gain_loop (g : graph) (c : list Z) (prize : Z) (v u : nat) (rest : list nat) (i : nat)
  (best : gain_entry) : res gain_entry :=
  match rest with
  | [] => Ok best
  | w :: rest' =>
      do uv <- edge g u v;
      do vw <- edge g v w;
      do uw <- edge g u w;
      match uw with
      | None => Throw InvalidArgument
      | Some euw =>
          do best' <- gain_try c prize i uv vw euw best;
          gain_loop g c prize v w rest' (S i) best'
      end
  end.

(** heuristic.hh:359-416 [unitaryGainOfVertex]. *)
Definition unitary_gain_of_vertex (g : graph) (tour : list nat) (c p : list Z) (v : nat)
  : res gain_entry :=
  match tour with
  | [] => UB IterPastEnd
  | u :: rest =>
      do prize <- prize_of p v;
      gain_loop g c prize v u rest 0 (f_zero, None)
  end.

(** heuristic.hh:500-501, 551-552 [UnitaryGainMap], a [std::map]: entries sorted by key. *)
Definition gain_map := list (nat * gain_entry).

(** [gain_map[v] = e] (heuristic.hh:457). *)
Fixpoint gm_set (m : gain_map) (v : nat) (e : gain_entry) : gain_map :=
  match m with
  | [] => [(v, e)]
  | (k, x) :: t =>
      if Nat.ltb v k then (v, e) :: m
      else if Nat.eqb v k then (v, e) :: t
      else (k, x) :: gm_set t v e
  end.

(** [gain_map[v]] read (heuristic.hh:482, 514): a missing key gives the value-initialised
    entry {0, 0.0}. *)
Fixpoint gm_get (m : gain_map) (v : nat) : gain_entry :=
  match m with
  | [] => (f_zero, Some 0%nat)
  | (k, x) :: t => if Nat.eqb v k then x else gm_get t v
  end.

(** heuristic.hh:418-431 [calculateAverageGain]. *)
Definition calculate_average_gain (in_tour : list nat) (m : gain_map) : float32 :=
  let '(total, num) :=
    fold_left (fun '(s, k) '(key, val) =>
                 if memb key in_tour then (s, k) else (f_add s (fst val), k + 1))
              m (f_zero, 0) in
  f_div total (f_of_int num).

(** heuristic.hh:451-464: one iteration of the loop; the state is the gain map and the
    biggest gain so far with its vertex ([None]: [found_biggest_gain = false], 0.0). *)
Definition find_gain_step (g : graph) (tour : list nat) (c p : list Z) (in_tour : list nat)
  (st : gain_map * option (nat * float32)) (v : nat) : res (gain_map * option (nat * float32)) :=
  let '(m, best) := st in
  if memb v in_tour then Ok st
  else
    do e <- unitary_gain_of_vertex g tour c p v;
    let biggest := match best with None => f_zero | Some (_, b) => b end in
    Ok (gm_set m v e, if f_lt biggest (fst e) then Some (v, fst e) else best).

(** heuristic.hh:433-469 [findVertexWithBiggestGain]; the updated gain map is returned
    with the vertex. *)
Definition find_vertex_with_biggest_gain (g : graph) (tour : list nat) (c p : list Z)
  (m : gain_map) (in_tour : list nat) : res (gain_map * nat) :=
  do '(m', best) <- foldM (find_gain_step g tour c p in_tour) (vertices g) (m, None);
  match best with
  | None => Throw NoGainVertexFoundException
  | Some (v, _) => Ok (m', v)
  end.

(** heuristic.hh:471-485 [insertBiggestGainVertexIntoTour]. *)
Definition insert_biggest_gain_vertex (tour : list nat) (v : nat) (m : gain_map)
  : res (list nat) :=
  match snd (gm_get m v) with
  | None => UB Uninit
  | Some i =>
      if Nat.leb (S i) (length tour)
      then Ok (firstn (S i) tour ++ v :: skipn (S i) tour)
      else UB IterPastEnd
  end.

(** heuristic.hh:509-533: the while loop of [extensionUnitaryGain]; [avg = None] is
    [calculate_avg_gain = true].  The [catch] ends the loop with the current tour. *)
Fixpoint unitary_gain_loop (fuel : nat) (g : graph) (tour : list nat) (c p : list Z)
  (in_tour : list nat) (m : gain_map) (avg : option float32) : res (list nat) :=
  match fuel with
  | O => OutOfFuel
  | S fuel' =>
      match find_vertex_with_biggest_gain g tour c p m in_tour with
      | Throw NoGainVertexFoundException => Ok tour
      | Throw e => Throw e
      | UB u => UB u
      | OutOfFuel => OutOfFuel
      | Ok (m', v) =>
          let a := match avg with
                   | None => calculate_average_gain in_tour m'
                   | Some a => a
                   end in
          if f_lt a (fst (gm_get m' v)) then
            do tour' <- insert_biggest_gain_vertex tour v m';
            unitary_gain_loop fuel' g tour' c p (v :: in_tour) m' (Some a)
          else Ok tour
      end
  end.

(** heuristic.hh:488-534 [extensionUnitaryGain].  The fuel is one iteration per vertex
    plus one. *)
Definition extension_unitary_gain (g : graph) (tour : list nat) (c p : list Z)
  : res (list nat) :=
  unitary_gain_loop (S (num_vertices g)) g tour c p tour [] None.

(** heuristic.hh:563-579: the while loop of [extensionUntilPrizeFeasible].  [insert] is
    [insert_a_vertex]; [attempts <= num_vertices] compares an [int] with a [size_t]. *)
Fixpoint until_gain_loop (fuel : nat) (g : graph) (tour : list nat) (c p : list Z)
  (in_tour : list nat) (m : gain_map) (prize quota : Z) (attempts : nat) (insert : bool)
  : res (list nat) :=
  match fuel with
  | O => OutOfFuel
  | S fuel' =>
      if andb (prize <? quota) insert then
        match find_vertex_with_biggest_gain g tour c p m in_tour with
        | Throw NoGainVertexFoundException =>
            until_gain_loop fuel' g tour c p in_tour m prize quota attempts false
        | Throw e => Throw e
        | UB u => UB u
        | OutOfFuel => OutOfFuel
        | Ok (m', v) =>
            do tour' <- insert_biggest_gain_vertex tour v m';
            do pv <- prize_of p v;
            do prize' <- chk (prize + pv);
            until_gain_loop fuel' g tour' c p (v :: in_tour) m' prize' quota (S attempts)
              (Nat.leb (S attempts) (num_vertices g))
        end
      else Ok tour
  end.

(** heuristic.hh:536-580 [extensionUntilPrizeFeasible]. *)
Definition extension_until_prize_feasible (g : graph) (tour : list nat) (c p : list Z)
  (quota : Z) : res (list nat) :=
  do prize <- total_prize_of_tour p tour;
  until_gain_loop (S (S (num_vertices g))) g tour c p tour [] prize quota 0 true.
