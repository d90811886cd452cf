(** * M_Collapse: /repo/include/pctsp/heuristic.hh:582-845 *)
From Verif Require Import Base Graph M_Walk M_Graph M_Extension M_Dijkstra.
Open Scope Z_scope.

(** heuristic.hh:589-597 [SubPathOverTour]; the members [feasibility_vertex] and
    [predecessor_vertex] are written but never read and are left out. *)
Record subpath := mkSub { sp_path : list nat; sp_prize : Z; sp_root_seen : bool; sp_found : bool }.

(** heuristic.hh:628-650: the for loop of [getSubPathOverTour].  [rem] is
    [length_of_tour - 1 - length_of_path]; [it] the position of the iterator. *)
Fixpoint sub_path_loop (rem : nat) (tour : list nat) (p : list Z) (quota : Z) (root : nat)
  (it : nat) (sp : subpath) : res subpath :=
  match rem with
  | O => Ok sp
  | S rem' =>
      if sp_prize sp <? quota then
        let it' := if Nat.eqb it (length tour) then 1%nat else it in
        do cur <- it_get tour it';
        do pc <- prize_of p cur;
        do sum <- chk (sp_prize sp + pc);
        if quota <=? sum then
          Ok (mkSub (sp_path sp) (sp_prize sp) (sp_root_seen sp) true)
        else
          sub_path_loop rem' tour p quota root (S it')
            (mkSub (sp_path sp ++ [cur]) sum (orb (Nat.eqb cur root) (sp_root_seen sp)) false)
      else Ok sp
  end.

(** heuristic.hh:599-653 [getSubPathOverTour]. *)
Definition get_sub_path_over_tour (tour : list nat) (i : nat) (p : list Z) (quota : Z) (root : nat)
  : res subpath :=
  do first <- it_get tour i;
  do pf <- prize_of p first;
  sub_path_loop (length tour - 1 - 1) tour p quota root (S i)
    (mkSub [first] pf (Nat.eqb first root) false).

(** heuristic.hh:683-694: the single-vertex collapses through the neighbours of the source. *)
Definition collapse_vertex_paths (g : graph) (p : list Z) (quota : Z) (source target : nat)
  (in_path : list bool) (prize : Z) : res (list (list nat)) :=
  do ns <- adjacent g source;
  foldM (fun acc v =>
           do oe <- edge g v target;
           do pv <- prize_of p v;
           do sum <- chk (prize + pv);
           match oe with
           | None => Ok acc
           | Some _ =>
               do iv <- vget in_path v;
               Ok (if andb (negb iv) (andb (quota <=? sum) (negb (Nat.eqb source target)))
                   then acc ++ [[source; v; target]] else acc)
           end) ns [].

(** heuristic.hh:696-722: the shortest-path collapse. *)
Definition collapse_shortest_path (tb : tiebreak) (g : graph) (c p : list Z) (quota : Z)
  (source target : nat) (in_path : list bool) (prize : Z) : res (list (list nat)) :=
  do m1 <- vset in_path source false;
  do mark <- vset m1 target false;
  do '(found, st) <- dijkstra_blacklist tb g c source target mark;
  if found : bool then
    do path <- path_in_tree_from_parents (d_pred st) target;
    do pp <- total_prize p path;
    do s1 <- chk (prize + pp);
    do ps <- prize_of p source;
    do s2 <- chk (s1 - ps);
    do pt <- prize_of p target;
    do s3 <- chk (s2 - pt);
    Ok (if quota <=? s3 then [path] else [])
  else Ok [].

(** heuristic.hh:664-725 [findCollapsePaths]; [back]/[front] of an empty list is UB. *)
Definition find_collapse_paths (tb : tiebreak) (g : graph) (internal : list nat) (c p : list Z)
  (quota : Z) (shortest : bool) : res (list (list nat)) :=
  match internal with
  | [] => UB EmptyList
  | target :: _ =>
      let source := last internal target in
      do prize <- total_prize p internal;
      do in_path <- foldM (fun m u => vset m u true) internal (repeat false (num_vertices g));
      do l1 <- collapse_vertex_paths g p quota source target in_path prize;
      do l2 <- (if shortest then collapse_shortest_path tb g c p quota source target in_path prize
                else Ok []);
      Ok (l1 ++ l2)
  end.

(** heuristic.hh:759-767: choice among the collapse paths; state = (best index, best path,
    best cost); the path stands for the one fetched at lines 772-774. *)
Definition collapse_choose (g : graph) (c : list Z) (internal_cost : Z)
  (st : option (list nat) * Z) (ext : list nat) : res (option (list nat) * Z) :=
  let '(best, best_cost) := st in
  do ec <- total_cost g c ext;
  do tot <- chk (ec + internal_cost);
  if tot <? best_cost then Ok (Some ext, tot) else Ok (best, best_cost).

(** heuristic.hh:744-781: the body of the loop of [collapse] for index [i]; state = (best
    tour, its cost). *)
Definition collapse_at (tb : tiebreak) (g : graph) (tour : list nat) (c p : list Z) (quota : Z)
  (root : nat) (shortest : bool) (st : list nat * Z) (i : nat) : res (list nat * Z) :=
  let '(best_tour, best_cost) := st in
  do sp <- get_sub_path_over_tour tour i p quota root;
  if andb (sp_root_seen sp) (sp_found sp) then
    do paths <- find_collapse_paths tb g (sp_path sp) c p quota shortest;
    do ic <- total_cost g c (sp_path sp);
    do '(b, cost) <- foldM (collapse_choose g c ic) paths (None, best_cost);
    match b with
    | None => Ok (best_tour, cost)
    | Some ext => Ok (sp_path sp ++ tl ext, cost)
    end
  else Ok st.

(** heuristic.hh:727-784 [collapse]: reverse iteration over all positions. *)
Definition collapse (tb : tiebreak) (g : graph) (tour : list nat) (c p : list Z) (quota : Z)
  (root : nat) (shortest : bool) : res (list nat) :=
  do cost <- total_cost g c tour;
  do '(best, _) <- foldM (collapse_at tb g tour c p quota root shortest)
                         (rev (seq 0 (length tour))) (tour, cost);
  Ok (reorder_tour_from_root best root).

(** heuristic.hh:815-823: search for a feasible tour with increasing step size; [rem] is
    [step_size - step + 1].  Returns the tour and whether it is feasible. *)
Fixpoint extend_until_feasible (rem : nat) (step : Z) (g : graph) (tour : list nat)
  (c p : list Z) (quota : Z) (root : nat) (depth : Z) : res (list nat * bool) :=
  match rem with
  | O => Ok (tour, false)
  | S rem' =>
      do tour' <- path_extension_until g tour c p root quota step depth;
      do prize <- total_prize_of_tour p tour';
      if quota <=? prize then Ok (tour', true)
      else extend_until_feasible rem' (step + 1) g tour' c p quota root depth
  end.

(** heuristic.hh:833-843: ping-pong between extension and collapse; state = (tour, best
    tour, best cost). *)
Fixpoint ping_pong (rem : nat) (step : Z) (tb : tiebreak) (g : graph) (c p : list Z) (quota : Z)
  (root : nat) (shortest : bool) (depth : Z) (tour best : list nat) (best_cost : Z)
  : res (list nat) :=
  match rem with
  | O => Ok best
  | S rem' =>
      do t1 <- path_extension g tour c p root step depth;
      do t2 <- collapse tb g t1 c p quota root shortest;
      do cost <- total_cost g c t2;
      let '(best', cost') :=
        if cost <? best_cost then (reorder_tour_from_root t2 root, cost) else (best, best_cost) in
      ping_pong rem' (step + 1) tb g c p quota root shortest depth best' best' cost'
  end.

(** heuristic.hh:787-845 [pathExtensionCollapse]; [step_size] a C++ int below INT_MAX (the
    overflow of [step++] when it equals INT_MAX is not modelled; the theorems exclude it). *)
Definition path_extension_collapse (tb : tiebreak) (g : graph) (init_tour : list nat)
  (c p : list Z) (quota : Z) (root : nat) (shortest : bool) (depth step_size : Z)
  : res (list nat) :=
  do prize <- total_prize_of_tour p init_tour;
  do '(tour, feasible) <-
    (if quota <=? prize then Ok (init_tour, true)
     else extend_until_feasible (Z.to_nat step_size) 1 g init_tour c p quota root depth);
  if feasible : bool then
    do best <- collapse tb g tour c p quota root shortest;
    do best_cost <- total_cost g c best;
    let best' := reorder_tour_from_root best root in
    do r <- ping_pong (Z.to_nat step_size) 1 tb g c p quota root shortest depth best' best' best_cost;
    Ok (reorder_tour_from_root r root)
  else Ok [].
