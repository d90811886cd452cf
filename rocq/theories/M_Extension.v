(** * M_Extension: path extension by unitary loss.
    /repo/include/pctsp/heuristic.hh:41-357 and /repo/src/heuristic.cpp:16-51 *)
From Verif Require Import Base Graph M_Walk M_Graph M_Float.
Open Scope Z_scope.

(** [std::sort] on vertices (heuristic.hh:57-58): insertion of one element. *)
Fixpoint ins_sorted (x : nat) (l : list nat) : list nat :=
  match l with
  | [] => [x]
  | y :: t => if Nat.leb x y then x :: l else y :: ins_sorted x t
  end.

(** [std::sort] on vertices (heuristic.hh:57-58; any sorting gives the same list of numbers). *)
Definition sort_nat (l : list nat) : list nat := fold_right ins_sorted [] l.

(** [std::set_intersection] (heuristic.hh:59) of two sorted ranges (keeps min multiplicity).  The first
    list drives; [inter_aux] walks the second. *)
Fixpoint set_intersection (l1 : list nat) : list nat -> list nat :=
  match l1 with
  | [] => fun _ => []
  | x :: t1 =>
      (fix inter_aux (l2 : list nat) : list nat :=
         match l2 with
         | [] => []
         | y :: t2 =>
             if Nat.ltb x y then set_intersection t1 l2
             else if Nat.ltb y x then inter_aux t2
             else x :: set_intersection t1 t2
         end)
  end.

(** heuristic.hh:41-61 [neighborIntersection]. *)
Definition neighbor_intersection (g : graph) (u v : nat) : res (list nat) :=
  do nu <- adjacent g u;
  do nv <- adjacent g v;
  Ok (set_intersection (sort_nat nu) (sort_nat nv)).

(** src/heuristic.cpp:16-23 [unitaryLoss]. *)
Definition unitary_loss (ext_prize int_prize ext_cost int_cost : Z) : res float32 :=
  do dc <- chk (ext_cost - int_cost);
  do dp <- chk (ext_prize - int_prize);
  Ok (f_div (f_of_int dc) (f_of_int dp)).

(** heuristic.hh:71-96: one iteration over a candidate; the state is the best
    (index, value) so far, [None] standing for index -1 / [extension_found = false],
    and the current index. *)
Definition choose_step (g : graph) (c p : list Z) (internal : list nat)
  (st : option (nat * float32) * nat) (cand : list nat)
  : res (option (nat * float32) * nat) :=
  let '(best, idx) := st in
  do ip <- total_prize p internal;
  do ep <- total_prize p cand;
  do d <- chk (ep - ip);
  if f_lt f_zero (f_of_int d) then
    do ec <- total_cost g c cand;
    do ic <- total_cost g c internal;
    do loss <- unitary_loss ep ip ec ic;
    let better := match best with None => true | Some (_, b) => f_lt loss b end in
    Ok (if better then Some (idx, loss) else best, S idx)
  else Ok (best, S idx).

(** heuristic.hh:63-99 [chooseExtensionPathFromCandidates]; [None] is index -1. *)
Definition choose_extension (g : graph) (c p : list Z) (cands : list (list nat))
  (internal : list nat) : res (option (nat * float32)) :=
  do st <- foldM (choose_step g c p internal) cands (None, 0%nat);
  Ok (fst st).

(** heuristic.hh:101-146 [swapPathsInTour] on a [std::list]; [f], [l] are the
    (non-negative) first and last index.  Advancing past [end()], erasing [end()] and
    incrementing [end()] are UB. *)
Definition swap_paths_in_tour (tour new_path : list nat) (f l : nat) : res (list nat) :=
  if Nat.ltb f l then
    if Nat.ltb l (length tour)
    then Ok (firstn f tour ++ new_path ++ skipn (S l) tour)
    else UB IterPastEnd
  else
    match tour with
    | [] => UB EmptyList
    | root :: _ =>
        if Nat.ltb (length tour) f then UB IterPastEnd
        else
          let t1 := firstn f tour in
          if Nat.ltb l (length t1) then
            let t2 := skipn (S l) t1 in
            let pos := find_pos root new_path in
            if Nat.ltb pos (length new_path)
            then Ok (skipn pos new_path ++ t2 ++ firstn (S pos) new_path)
            else UB IterPastEnd
          else UB IterPastEnd
    end.

(** src/heuristic.cpp:25-29 [numFeasibleExtensions].  A vector of losses with its
    feasibility bits and paths is modelled as one list of [option (loss, path)]:
    [None] is [is_feasible_extension[i] = false] (loss 0.0, empty path). *)
Definition num_feasible {A} (l : list (option A)) : nat :=
  length (filter (fun o => match o with Some _ => true | None => false end) l).

(** src/heuristic.cpp:31-37 [averageUnitaryLoss]. *)
Definition average_unitary_loss (l : list (option (float32 * list nat))) : float32 :=
  f_div (fold_left (fun acc o => match o with Some (x, _) => f_add acc x | None => acc end) l f_zero)
        (f_of_int (Z.of_nat (num_feasible l))).

(** src/heuristic.cpp:39-51 [indexOfSmallestLoss]: [None] is -1; otherwise the index
    with its loss and path. *)
Fixpoint index_of_smallest_loss_from (l : list (option (float32 * list nat))) (i : nat)
  (best : option (nat * (float32 * list nat))) : option (nat * (float32 * list nat)) :=
  match l with
  | [] => best
  | None :: t => index_of_smallest_loss_from t (S i) best
  | Some (x, pa) :: t =>
      let better := match best with None => true | Some (_, (b, _)) => f_lt x b end in
      index_of_smallest_loss_from t (S i) (if better then Some (i, (x, pa)) else best)
  end.

(** src/heuristic.cpp:39-51 [indexOfSmallestLoss], started at index 0. *)
Definition index_of_smallest_loss (l : list (option (float32 * list nat)))
  : option (nat * (float32 * list nat)) := index_of_smallest_loss_from l 0 None.

(** heuristic.hh:190-195: the case [path_depth_limit == 2] with the root inside. *)
Definition cands_root (g : graph) (root vi vj : nat) : res (list (list nat)) :=
  do e1 <- edge g vi root;
  match e1 with
  | None => Ok []
  | Some _ =>
      do e2 <- edge g root vj;
      Ok (match e2 with Some _ => [[vi; root; vj]] | None => [] end)
  end.

(** heuristic.hh:197-206: the case [path_depth_limit == 2] without the root inside. *)
Definition cands_depth2 (g : graph) (tour : list nat) (vi vj : nat) : res (list (list nat)) :=
  do ns <- neighbor_intersection g vi vj;
  Ok (map (fun u => [vi; u; vj]) (filter (fun u => negb (memb u tour)) ns)).

(** heuristic.hh:208-228: the case [path_depth_limit > 2] without the root inside. *)
Definition cands_deep (g : graph) (p : list Z) (tour internal : list nat)
  (vi vj : nat) (depth : Z) : res (list (list nat)) :=
  let n := num_vertices g in
  do marked <- foldM (fun m h => vset m h true) tour (repeat false n);
  do '(marked', parent) <- breadth_first_search g vi marked (repeat 0%nat n) (depth - 1);
  do ns <- adjacent g vj;
  foldM (fun acc v =>
           if memb v tour then Ok acc
           else
             do mv <- vget marked' v;
             if mv : bool then
               do path <- path_in_tree_from_parents parent v;
               let path_ij := path ++ [vj] in
               do ep <- total_prize p path_ij;
               do ip <- total_prize p internal;
               Ok (if ip <? ep then acc ++ [path_ij] else acc)
             else Ok acc) ns [].

(** heuristic.hh:172-243: the body of the loop of [findExtensionPaths] for index [i]. *)
Definition find_extension_path_at (g : graph) (tour : list nat) (c p : list Z) (root : nat)
  (step : nat) (depth : Z) (i : nat) : res (option (float32 * list nat)) :=
  let k := (length tour - 1)%nat in
  let j := ((i + step) mod k)%nat in
  do vi <- it_get tour i;
  do vj <- it_get tour j;
  do internal <- get_subpath_of_cycle tour i j;
  do root_in <- is_internal_vertex_of_walk internal root;
  do cands <-
    (if andb (depth =? 2) root_in then cands_root g root vi vj
     else if depth =? 2 then cands_depth2 g tour vi vj
     else if andb (2 <? depth) (negb root_in) then cands_deep g p tour internal vi vj depth
     else Ok []);
  do best <- choose_extension g c p cands internal;
  match best with
  | None => Ok None
  | Some (idx, loss) => do path <- vget cands idx; Ok (Some (loss, path))
  end.

(** heuristic.hh:154-244 [findExtensionPaths]: the loop over i in [0, k). *)
Definition find_extension_paths (g : graph) (tour : list nat) (c p : list Z) (root : nat)
  (step : nat) (depth : Z) : res (list (option (float32 * list nat))) :=
  mapM (find_extension_path_at g tour c p root step depth) (seq 0 (length tour - 1)).

(** [step_size < tour.size() - 1] (heuristic.hh:262,335): an [int] compared with a
    [size_t], so a negative step becomes huge and an empty tour has size_t max. *)
Definition step_lt_size (step : Z) (size : nat) : bool :=
  let lhs := if step <? 0 then step + 2 ^ 64 else step in
  let rhs := (Z.of_nat size - 1) mod 2 ^ 64 in
  lhs <? rhs.

(** heuristic.hh:246-301 [pathExtension], the while loop (lines 262-300).  [rem] is
    [num_vertices(graph) - i]; [first] is [i == 0]; [avg] is [None] while
    [calculate_avg_loss] is true.  For an empty tour the vectors are created with a
    negative size ([std::length_error]). *)
Fixpoint path_extension_loop (rem : nat) (first : bool) (avg : option float32)
  (g : graph) (tour : list nat) (c p : list Z) (root : nat) (step depth : Z)
  : res (list nat) :=
  match rem with
  | O => Ok tour
  | S rem' =>
      if step_lt_size step (length tour) then
        match tour with
        | [] => Throw LengthError
        | _ =>
            do l <- find_extension_paths g tour c p root (Z.to_nat step) depth;
            match index_of_smallest_loss l with
            | None => Ok tour      (* num_feasible_extensions == 0 *)
            | Some (idx, (loss, path)) =>
                let a := match avg with Some a => a | None => average_unitary_loss l end in
                if orb (andb (Nat.eqb (num_feasible l) 1) first) (f_lt loss a) then
                  do tour' <- swap_paths_in_tour tour path idx (idx + Z.to_nat step);
                  path_extension_loop rem' false (Some a) g tour' c p root step depth
                else Ok tour
            end
        end
      else Ok tour
  end.

(** heuristic.hh:246-301 [pathExtension]; the tour argument is updated in place, here
    the new tour is returned. *)
Definition path_extension (g : graph) (tour : list nat) (c p : list Z) (root : nat)
  (step depth : Z) : res (list nat) :=
  path_extension_loop (num_vertices g) true None g tour c p root step depth.

(** heuristic.hh:303-314 [extensionUnitaryLoss]. *)
Definition extension_unitary_loss (g : graph) (tour : list nat) (c p : list Z) (root : nat)
  : res (list nat) := path_extension g tour c p root 1 2.

(** heuristic.hh:331-356: the while loop of [pathExtensionUntilPrizeFeasible].
    [prize] is never updated by the code; [rem] is [num_vertices(graph) - i]. *)
Fixpoint path_extension_until_loop (rem : nat)
  (g : graph) (tour : list nat) (c p : list Z) (root : nat) (prize quota step depth : Z)
  : res (list nat) :=
  if prize <? quota then
    if step_lt_size step (length tour) then
      match rem with
      | O => Ok tour
      | S rem' =>
          match tour with
          | [] => Throw LengthError
          | _ =>
              let k := (length tour - 1)%nat in
              do l <- find_extension_paths g tour c p root (Z.to_nat step) depth;
              match index_of_smallest_loss l with
              | None => Ok tour
              | Some (idx, (_, path)) =>
                  do tour' <- swap_paths_in_tour tour path idx ((idx + Z.to_nat step) mod k)%nat;
                  path_extension_until_loop rem' g tour' c p root prize quota step depth
              end
          end
      end
    else Ok tour
  else Ok tour.

(** heuristic.hh:316-357 [pathExtensionUntilPrizeFeasible]. *)
Definition path_extension_until (g : graph) (tour : list nat) (c p : list Z) (root : nat)
  (quota step depth : Z) : res (list nat) :=
  do prize <- total_prize_of_tour p tour;
  path_extension_until_loop (num_vertices g) g tour c p root prize quota step depth.
