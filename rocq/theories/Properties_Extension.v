(** * Properties_Extension: C04, C05, C29, C30, C31, C47 *)
From Coq Require Import Permutation.
From Verif Require Import Base Graph Spec M_Float M_Walk M_Graph M_Extension
  P_Base P_Walk P_Float P_BFS P_Check P_Choose P_Extension Spec_Ext P_ExtRounds Properties_Walk.
Open Scope nat_scope.

(** Example data (not a model of anything): a wheel-like graph with two outside vertices. *)
Definition xg : graph :=
  mkGraph 6 [(0,1);(1,2);(2,3);(3,0);(0,4);(4,1);(1,5);(5,2);(4,5)].
Definition xc : list Z := [3;4;5;6;1;2;2;1;1]%Z.
Definition xp : list Z := [0;7;8;2;1;5]%Z.

(** ** C29 *)
Theorem C29_choose_optimal : forall g c p internal C P L,
  costs_within g c (- C) C -> prizes_within g p (- P) P -> (0 <= C)%Z -> (0 <= P)%Z ->
  (2 * (Z.of_nat L * C) <= int_max)%Z -> (2 * (Z.of_nat L * P) <= int_max)%Z ->
  forall cands,
  (is_walk g internal /\ Forall (fun v => v < gn g) internal /\ length internal <= L) ->
  Forall (fun w => is_walk g w /\ Forall (fun v => v < gn g) w /\ length w <= L) cands ->
  exists best, choose_extension g c p cands internal = Ok best /\
    match best with
    | None => forall cand, In cand cands -> ~ increases_prize p internal cand
    | Some (idx, l) =>
        exists cand, nth_error cands idx = Some cand /\
          (exists ip ep ic ec, prize_sum p internal ip /\ prize_sum p cand ep /\ (ip < ep)%Z /\
             walk_cost g c internal ic /\ walk_cost g c cand ec /\
             l = f_div (f_of_int (ec - ic)) (f_of_int (ep - ip))) /\
          forall i cand' ip ep ic ec, nth_error cands i = Some cand' ->
             prize_sum p internal ip -> prize_sum p cand' ep -> (ip < ep)%Z ->
             walk_cost g c internal ic -> walk_cost g c cand' ec ->
             let l' := f_div (f_of_int (ec - ic)) (f_of_int (ep - ip)) in
             f_lt l' l = false /\ (i < idx -> f_lt l l' = true)
    end.
Proof.
  exact (fun g c p internal C P L Hc Hp HC HP HLC HLP cands Hi Hcs =>
    choose_spec g c p internal C P L Hc Hp HC HP HLC HLP cands Hi Hcs).
Qed.
Print Assumptions C29_choose_optimal.

Example C29_case :
  choose_extension xg xc xp [[0;4;5;1]; [0;4;1]; [0;1]] [0;1]
   = Ok (Some (1, f_div (f_of_int 0) (f_of_int 1))) /\
  choose_extension xg xc xp [[0;1]; [0;4;5;1]] [0;1]
   = Ok (Some (1, f_div (f_of_int 1) (f_of_int 6))).
Proof. split; vm_compute; reflexivity. Qed.

Theorem C29_smallest_loss : forall l,
  (forall y pb, In (Some (y, pb)) l -> not_nan y) ->
  match index_of_smallest_loss l with
  | None => forall o, In o l -> o = None
  | Some (idx, (x, pa)) =>
      nth_error l idx = Some (Some (x, pa)) /\
      forall i y pb, nth_error l i = Some (Some (y, pb)) ->
        f_lt y x = false /\ (i < idx -> f_lt x y = true)
  end.
Proof. exact index_of_smallest_loss_spec. Qed.
Print Assumptions C29_smallest_loss.

Example C29_smallest_case :
  index_of_smallest_loss [None; Some (f_of_int 3, [1]); Some (f_of_int (-2), [2]); None;
                          Some (f_of_int (-2), [3])] = Some (2, (f_of_int (-2), [2])) /\
  (forall y pb, In (Some (y, pb)) [None; Some (f_of_int 3, [1]); Some (f_of_int (-2), [2]); None;
                          Some (f_of_int (-2), [3])] -> not_nan y).
Proof.
  split; [vm_compute; reflexivity|].
  intros y pb H. cbn [In] in H.
  repeat (destruct H as [H|H]; [first [discriminate | injection H as <- _; vm_compute; discriminate]|]).
  destruct H.
Qed.

(** ** C30 *)
(** From position [i] the sub-path walks round the closed tour (period [k]) and stops at
    the first arrival at position [j]; the repeated first/last vertex is met once. *)
Theorem C30_subpath_exact : forall t k i j,
  length t = S k -> 1 <= k -> nth_error t k = nth_error t 0 -> i < k -> j < k ->
  exists r, get_subpath_of_cycle t i j = Ok r /\
    length r = S ((j + k - i) mod k) /\
    forall m, m < length r -> nth_error r m = nth_error t ((i + m) mod k).
Proof. exact get_subpath_ok. Qed.
Print Assumptions C30_subpath_exact.

Theorem C30_subpath_walk_nodup : forall g r m t i j, closed_tour g r m t ->
  i < length t - 1 -> j < length t - 1 ->
  exists w u v, get_subpath_of_cycle t i j = Ok w /\ is_walk g w /\ NoDup w /\
    nth_error t i = Some u /\ nth_error t j = Some v /\
    hd_error w = Some u /\ last w u = v /\ (forall x, In x w -> In x t).
Proof. exact get_subpath_walk_nodup. Qed.
Print Assumptions C30_subpath_walk_nodup.

Example C30_case : closed_tour ex_g 0 2 [0;1;2;3;0] /\
  get_subpath_of_cycle [0;1;2;3;0] 3 1 = Ok [3;0;1].
Proof. check. Qed.

(** Outside the tour: a start more than [j] past the end makes a vector of negative length,
    any other start past the end is undefined behaviour; at the end itself with [j = 0] the
    sub-path is empty. *)
Theorem C30_past_end : forall t i j,
  (length t + j < i -> get_subpath_of_cycle t i j = Throw LengthError) /\
  (length t < i <= length t + j -> get_subpath_of_cycle t i j = UB IterPastEnd) /\
  (t <> [] -> get_subpath_of_cycle t (length t) 0 = Ok []).
Proof. exact get_subpath_past_end. Qed.
Print Assumptions C30_past_end.

(** ** C31 *)
Theorem C31_swap_forward : forall A x M y B path,
  swap_paths_in_tour (A ++ x :: M ++ y :: B) path (length A) (length A + S (length M))
  = Ok (A ++ path ++ B).
Proof. exact swap_forward. Qed.
Print Assumptions C31_swap_forward.

(** The path wraps over the front [r] of the tour: it starts at position [S (length A)] and
    ends at position [l]; [a ++ r :: b] is the new path; what stays is the part strictly
    between. *)
Theorem C31_swap_wrapping : forall r A B x M (a b : list nat) l,
  l < S (length A) -> B = skipn (S l) (r :: A) -> ~ In r a ->
  swap_paths_in_tour ((r :: A) ++ x :: M) (a ++ r :: b) (S (length A)) l
  = Ok ((r :: b) ++ B ++ a ++ [r]).
Proof. exact (fun r A B x M a b => swap_backward r A B x M a b). Qed.
Print Assumptions C31_swap_wrapping.

(** Replacing a path of a closed simple tour by one through new vertices gives a closed
    simple tour, for both the plain and the wrapped index. *)
Theorem C31_swap_closed : forall g r t A x M y B int k,
  closed_tour g r 1 t -> length t = S k -> t = A ++ x :: M ++ y :: B -> S (length M) < k ->
  int <> [] -> NoDup int -> (forall v, In v int -> ~ In v t) ->
  is_walk g (x :: int ++ [y]) -> Forall (fun v => v < gn g) (x :: int ++ [y]) ->
  exists t', swap_paths_in_tour t (x :: int ++ [y]) (length A) (length A + S (length M)) = Ok t' /\
    swap_paths_in_tour t (x :: int ++ [y]) (length A) ((length A + S (length M)) mod k) = Ok t' /\
    t' = A ++ (x :: int ++ [y]) ++ B /\ closed_tour g r 2 t'.
Proof. exact swap_closed. Qed.
Print Assumptions C31_swap_closed.

Example C31_case :
  swap_paths_in_tour [0;1;2;3;0] [1;5;2] 1 2 = Ok [0;1;5;2;3;0] /\
  swap_paths_in_tour [0;1;2;3;0] [3;7;0] 3 0 = Ok [0;1;2;3;7;0] /\
  swap_paths_in_tour [0;1;2;3;0] [3;7;0;8;1] 3 1 = Ok [0;8;1;2;3;7;0].
Proof. check. Qed.

(** If the wrapped path avoids the front of the tour (which is legal when the root is
    elsewhere) the list iterator runs past the end. *)
Theorem C31_swap_wrapping_refuted : exists g r t x y int f l,
  closed_tour g r 2 t /\ nth_error t f = Some x /\ nth_error t l = Some y /\ l < f /\
  is_walk g (x :: int ++ [y]) /\ NoDup int /\ (forall v, In v int -> ~ In v t) /\
  swap_paths_in_tour t (x :: int ++ [y]) f l = UB IterPastEnd.
Proof.
  exists xg, 0, [0;4;1;2;3;0], 2, 1, [5], 3, 2. check.
  simpl. intuition lia.
Qed.
Print Assumptions C31_swap_wrapping_refuted.

(** ** C04 *)
Theorem C04_path_extension_sound : forall g c p r C P,
  graph_ok g -> (Z.of_nat (gn g) <= int_max)%Z ->
  costs_within g c (- C) C -> prizes_within g p 0 P -> (0 <= C)%Z -> (0 <= P)%Z ->
  (2 * (Z.of_nat (S (gn g)) * C) <= int_max)%Z -> (2 * (Z.of_nat (S (gn g)) * P) <= int_max)%Z ->
  forall step depth t, closed_tour g r 1 t ->
  (int_min <= step <= int_max)%Z -> step <> 0%Z ->
  exists t', path_extension g t c p r step depth = Ok t' /\
    (t' = t \/
     closed_tour g r 2 t' /\
     forall z, tour_prize p t z -> exists z', tour_prize p t' z' /\ (z < z')%Z).
Proof. exact path_extension_ok. Qed.
Print Assumptions C04_path_extension_sound.

(** the result of extending a proper tour is a proper tour, with at least the prize *)
Theorem C04_path_extension_tour : forall g c p r C P,
  graph_ok g -> (Z.of_nat (gn g) <= int_max)%Z ->
  costs_within g c (- C) C -> prizes_within g p 0 P -> (0 <= C)%Z -> (0 <= P)%Z ->
  (2 * (Z.of_nat (S (gn g)) * C) <= int_max)%Z -> (2 * (Z.of_nat (S (gn g)) * P) <= int_max)%Z ->
  forall step depth t z, tour_from g r t -> tour_prize p t z ->
  (int_min <= step <= int_max)%Z -> step <> 0%Z ->
  exists t' z', path_extension g t c p r step depth = Ok t' /\
    tour_from g r t' /\ tour_prize p t' z' /\ (z <= z')%Z.
Proof. exact path_extension_tour. Qed.
Print Assumptions C04_path_extension_tour.

Example C04_case :
  graph_ok xg /\ costs_within xg xc (-10) 10 /\ prizes_within xg xp 0 10 /\
  tour_from xg 0 [0;1;2;3;0] /\
  path_extension xg [0;1;2;3;0] xc xp 0 1 2 = Ok [0;1;5;2;3;0] /\
  path_extension xg [0;1;2;3;0] xc xp 0 1 3 = Ok [0;1;5;2;3;0].
Proof. check. Qed.

(** a path through two new vertices is found with depth limit 3 but not with 2 *)
Example C04_deep_case :
  let g := mkGraph 7 [(0,1);(1,2);(2,3);(3,0);(1,4);(4,5);(5,2);(0,6);(6,1)] in
  let c := [3;4;5;6;1;1;1;2;2]%Z in let p := [0;7;8;2;1;5;1]%Z in
  tour_from g 0 [0;1;2;3;0] /\
  path_extension g [0;1;2;3;0] c p 0 1 2 = Ok [0;6;1;2;3;0] /\
  path_extension g [0;1;2;3;0] c p 0 1 3 = Ok [0;1;4;5;2;3;0].
Proof. intros g c p. check. Qed.

Theorem C04_extension_unitary_loss_tour : forall g c p r C P,
  graph_ok g -> (Z.of_nat (gn g) <= int_max)%Z ->
  costs_within g c (- C) C -> prizes_within g p 0 P -> (0 <= C)%Z -> (0 <= P)%Z ->
  (2 * (Z.of_nat (S (gn g)) * C) <= int_max)%Z -> (2 * (Z.of_nat (S (gn g)) * P) <= int_max)%Z ->
  forall t z, tour_from g r t -> tour_prize p t z ->
  exists t' z', extension_unitary_loss g t c p r = Ok t' /\
    tour_from g r t' /\ tour_prize p t' z' /\ (z <= z')%Z.
Proof. exact extension_unitary_loss_tour. Qed.
Print Assumptions C04_extension_unitary_loss_tour.

(** Which replacements are made.  First round: the replacement of least loss, provided it is
    the only one or its loss is below the mean loss [a] of all; every later one has a loss
    below the same [a].  It stops when no replacement is left, or the least loss is not below
    [a], or the tour is too short for the step size, or after as many rounds as there are
    vertices. *)
Theorem C04_rounds : forall g c p r C P,
  graph_ok g -> (Z.of_nat (gn g) <= int_max)%Z ->
  costs_within g c (- C) C -> prizes_within g p 0 P -> (0 <= C)%Z -> (0 <= P)%Z ->
  (2 * (Z.of_nat (S (gn g)) * C) <= int_max)%Z -> (2 * (Z.of_nat (S (gn g)) * P) <= int_max)%Z ->
  forall step depth t, closed_tour g r 1 t -> (1 <= step <= int_max)%Z ->
  (step < Z.of_nat (length t) - 1)%Z ->
  exists t', path_extension g t c p r step depth = Ok t' /\
  exists os, options g c p (Z.to_nat step) depth t os /\
    let a := mean_loss os in
    let ok x := f_lt x a = true in
    (((forall o, In o os -> o = None) /\ t' = t) \/
     exists i x path, least os i x path /\
       ((length (losses os) <> 1 /\ ~ ok x /\ t' = t) \/
        (length (losses os) = 1 \/ ok x) /\
        exists k, replacements g c p (Z.to_nat step) depth ok k (replaced t (Z.to_nat step) i path) t' /\
          S k <= gn g /\ (S k = gn g \/ finished g c p (Z.to_nat step) depth ok t'))).
Proof. exact path_extension_rounds. Qed.
Print Assumptions C04_rounds.

(** A step size of at least the number of vertices on the tour changes nothing. *)
Theorem C04_step_too_long : forall g c p r, (Z.of_nat (gn g) <= int_max)%Z ->
  forall step depth t, closed_tour g r 1 t -> (int_min <= step <= int_max)%Z ->
  (step < 0 \/ Z.of_nat (length t) - 1 <= step)%Z ->
  path_extension g t c p r step depth = Ok t.
Proof.
  intros g c p r Hmax. apply path_extension_too_long with (C := 0%Z) (P := 0%Z); auto; rewrite Z.mul_0_r; discriminate.
Qed.
Print Assumptions C04_step_too_long.

(** With step size 1 every replacement lengthens the tour, so the round counter is never the
    reason for stopping. *)
Theorem C04_counter_not_reached : forall g c p r, graph_ok g ->
  forall depth ok k t t', closed_tour g r 1 t -> replacements g c p 1 depth ok k t t' ->
  closed_tour g r 1 t' /\ length t + k <= length t' <= S (gn g).
Proof.
  intros g c p r Hg. apply replacements_bound with (C := 0%Z) (P := 0%Z); auto; rewrite Z.mul_0_r; discriminate.
Qed.
Print Assumptions C04_counter_not_reached.

(** 4 and 5 can be put into the tour; their losses are -1/5 (the insertion of 5 between 1 and 2)
    and 0; the mean lies between. *)
Example C04_rounds_case : let os := [Some (f_div (f_of_int 0) (f_of_int 1), [0;4;1]);
    Some (f_div (f_of_int (-1)) (f_of_int 5), [1;5;2]); None; None] in
  find_extension_paths xg [0;1;2;3;0] xc xp 0 1 2 = Ok os /\
  length (losses os) = 2 /\ f_lt (f_div (f_of_int (-1)) (f_of_int 5)) (mean_loss os) = true /\
  path_extension xg [0;1;2;3;0] xc xp 0 1 2 = Ok (replaced [0;1;2;3;0] 1 1 [1;5;2]).
Proof. intros os. check. Qed.

(** The tour must start at the root: otherwise a path wrapping over the front of the tour is
    accepted and [last_index = i + step_size] runs past the end (heuristic.hh:293-297). *)
Theorem C04_front_not_root_refuted : exists g c p r t step depth,
  graph_ok g /\ costs_within g c 0 10 /\ prizes_within g p 0 10 /\
  tour_thru g r t /\ (1 <= step)%Z /\
  path_extension g t c p r step depth = UB IterPastEnd.
Proof.
  exists (mkGraph 4 [(1,2);(2,0);(0,1);(0,3);(3,2)]), [1;1;1;1;1]%Z, [0;1;1;9]%Z, 0, [1;2;0;1], 2%Z, 2%Z.
  split; [check|]. split; [check|]. split; [check|]. split; [|split; [lia|vm_compute; reflexivity]].
  split; [exists 1; check|simpl; auto].
Qed.
Print Assumptions C04_front_not_root_refuted.

(** Prizes must be non-negative: shortcutting a negative prize next to the root is accepted
    and again the index runs past the end. *)
Theorem C04_negative_prize_refuted : exists g c p r t step depth,
  graph_ok g /\ costs_within g c 0 10 /\ prizes_within g p (-10) 10 /\
  tour_from g r t /\ (1 <= step)%Z /\
  path_extension g t c p r step depth = UB IterPastEnd.
Proof.
  exists (mkGraph 4 [(0,1);(1,2);(2,3);(3,0);(0,2)]), [1;1;1;1;1]%Z, [0;1;1;-5]%Z, 0, [0;1;2;3;0], 3%Z, 2%Z.
  check.
Qed.
Print Assumptions C04_negative_prize_refuted.

(** The step size 0 must be excluded. *)
Theorem C04_step_zero_refuted : exists g c p r t,
  graph_ok g /\ costs_within g c 0 10 /\ prizes_within g p 0 10 /\ tour_from g r t /\
  ~ (exists t', path_extension g t c p r 0 2 = Ok t').
Proof.
  exists xg, xc, xp, 0, [0;1;2;3;0]. check.
  intros [t' H]. vm_compute in H. discriminate.
Qed.
Print Assumptions C04_step_zero_refuted.

(** An empty tour makes the code create vectors of size -1: [std::length_error]. *)
Theorem C04_empty_tour_refuted : exists g c p r,
  graph_ok g /\ path_extension g [] c p r 1 2 = Throw LengthError.
Proof. exists xg, xc, xp, 0. check. Qed.
Print Assumptions C04_empty_tour_refuted.

(** ** C05 *)
Theorem C05_until_sound : forall g c p r C P,
  graph_ok g -> (Z.of_nat (gn g) <= int_max)%Z ->
  costs_within g c (- C) C -> prizes_within g p 0 P -> (0 <= C)%Z -> (0 <= P)%Z ->
  (2 * (Z.of_nat (S (gn g)) * C) <= int_max)%Z -> (2 * (Z.of_nat (S (gn g)) * P) <= int_max)%Z ->
  forall quota step depth t, closed_tour g r 1 t ->
  (int_min <= step <= int_max)%Z -> step <> 0%Z ->
  exists t', path_extension_until g t c p r quota step depth = Ok t' /\
    (t' = t \/
     closed_tour g r 2 t' /\
     forall z, tour_prize p t z -> exists z', tour_prize p t' z' /\ (z < z')%Z) /\
    (forall z, tour_prize p t z -> (quota <= z)%Z -> t' = t).
Proof. exact path_extension_until_ok. Qed.
Print Assumptions C05_until_sound.

Example C05_case :
  graph_ok xg /\ costs_within xg xc (-10) 10 /\ prizes_within xg xp 0 10 /\
  tour_from xg 0 [0;1;2;3;0] /\ tour_prize xp [0;1;2;3;0] 17 /\
  path_extension_until xg [0;1;2;3;0] xc xp 0 20 1 2 = Ok [0;4;1;5;2;3;0].
Proof. check. Qed.

(** Below the quota the least replacement is made round after round until none is left; the
    prize is not looked at again. *)
Theorem C05_rounds : forall g c p r C P,
  graph_ok g -> (Z.of_nat (gn g) <= int_max)%Z ->
  costs_within g c (- C) C -> prizes_within g p 0 P -> (0 <= C)%Z -> (0 <= P)%Z ->
  (2 * (Z.of_nat (S (gn g)) * C) <= int_max)%Z -> (2 * (Z.of_nat (S (gn g)) * P) <= int_max)%Z ->
  forall step depth quota z t, closed_tour g r 1 t -> tour_prize p t z -> (z < quota)%Z ->
  (1 <= step <= int_max)%Z ->
  exists t' k, path_extension_until g t c p r quota step depth = Ok t' /\
    replacements g c p (Z.to_nat step) depth (fun _ => True) k t t' /\ k <= gn g /\
    (k = gn g \/ finished g c p (Z.to_nat step) depth (fun _ => True) t').
Proof. exact path_extension_until_rounds. Qed.
Print Assumptions C05_rounds.

(** The documented stop condition does not hold: [t] is below the quota, one insertion gives
    [t1] which meets it (so [t1] would be returned unchanged), yet the function goes on and
    returns the dearer [t2]. *)
Theorem C47_stop_condition_refuted : exists g c p r t t1 t2 quota z z1 c1 c2,
  graph_ok g /\ costs_within g c 0 10 /\ prizes_within g p 0 10 /\
  tour_from g r t /\ tour_prize p t z /\ (z < quota)%Z /\
  path_extension_until_loop 1 g t c p r z quota 1 2 = Ok t1 /\
  tour_from g r t1 /\ tour_prize p t1 z1 /\ (quota <= z1)%Z /\
  path_extension_until g t1 c p r quota 1 2 = Ok t1 /\
  path_extension_until g t c p r quota 1 2 = Ok t2 /\
  walk_cost g c t1 c1 /\ walk_cost g c t2 c2 /\ (c1 < c2)%Z.
Proof.
  exists (mkGraph 6 [(0,1);(1,2);(2,3);(3,0);(0,4);(4,1);(1,5);(5,2)]),
    [3;4;5;6;5;5;2;3]%Z, [0;7;8;2;1;5]%Z, 0, [0;1;2;3;0], [0;1;5;2;3;0], [0;4;1;5;2;3;0],
    20%Z, 17%Z, 22%Z, 19%Z, 26%Z.
  check.
Qed.
Print Assumptions C47_stop_condition_refuted.

(** Below the quota the result does not depend on the quota at all: the same tour for every
    quota above the prize of the input. *)
Theorem C47_quota_not_consulted : forall g c p r t z quota quota' step depth,
  total_prize_of_tour p t = Ok z -> (z < quota)%Z -> (z < quota')%Z ->
  path_extension_until g t c p r quota step depth = path_extension_until g t c p r quota' step depth.
Proof.
  intros g c p r t z q q' step depth E H H'. unfold path_extension_until. rewrite E. cbn [bind].
  apply Z.ltb_lt in H, H'. generalize t (num_vertices g). clear t E.
  intros t n. revert t. induction n as [|n IH]; intros t; cbn [path_extension_until_loop]; rewrite H, H'; auto.
  destruct (step_lt_size step (length t)); auto. destruct t as [|x t]; auto.
  destruct (find_extension_paths g (x :: t) c p r (Z.to_nat step) depth); auto. cbn [bind].
  destruct (index_of_smallest_loss _) as [[idx [l path]]|]; auto.
  destruct (swap_paths_in_tour _ _ _ _); auto. cbn [bind]. apply IH.
Qed.
Print Assumptions C47_quota_not_consulted.
Example C47_quota_case : total_prize_of_tour xp [0;1;2;3;0] = Ok 17%Z /\
  path_extension_until xg [0;1;2;3;0] xc xp 0 18 1 2 = Ok [0;4;1;5;2;3;0] /\
  path_extension_until xg [0;1;2;3;0] xc xp 0 1000 1 2 = Ok [0;4;1;5;2;3;0].
Proof. check. Qed.
