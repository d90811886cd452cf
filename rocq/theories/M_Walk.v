(** * M_Walk: /repo/include/pctsp/walk.hh *)
From Verif Require Import Base Graph.
Open Scope Z_scope.

(** walk.hh:15-44 [ReorderTourFromRoot].  [find_pos] is [std::find]; position
    [length tour] is [end()] (root not in the tour).  When the root is found first
    (or the tour is empty) the tour is copied; otherwise
    [root_finder .. end) ++ tour[1 .. root_finder) ++ [root]. *)
Definition reorder_tour_from_root (tour : list nat) (root : nat) : list nat :=
  let p := find_pos root tour in
  if Nat.eqb p 0 then tour
  else skipn p tour ++ firstn (p - 1) (skipn 1 tour) ++ [root].

(** walk.hh:46-70 [getEdgesInWalk]: fewer than two vertices give no edges;
    otherwise one [boost::edge] lookup per consecutive pair. *)
Fixpoint get_edges_in_walk (g : graph) (w : list nat) : res (list nat) :=
  match w with
  | [] => Ok []
  | u :: w' =>
      match w' with
      | [] => Ok []
      | v :: _ =>
          do oe <- edge g u v;
          match oe with
          | None => Throw EdgeNotFoundException
          | Some e => do es <- get_edges_in_walk g w'; Ok (e :: es)
          end
      end
  end.

(** walk.hh:72-94 [totalCost] over edges: [cost += cost_map[edge]] in 32-bit ints. *)
Definition total_cost_edges (c : list Z) (es : list nat) : res Z :=
  foldM (fun acc e => do x <- cost_of c e; chk (acc + x)) es 0.

(** walk.hh:96-116 [totalCost] of a walk. *)
Definition total_cost (g : graph) (c : list Z) (w : list nat) : res Z :=
  do es <- get_edges_in_walk g w; total_cost_edges c es.

(** walk.hh:118-139 [totalPrize]. *)
Definition total_prize (p : list Z) (l : list nat) : res Z :=
  foldM (fun acc v => do x <- prize_of p v; chk (acc + x)) l 0.

(** walk.hh:141-148 [totalPrizeOfGraph]. *)
Definition total_prize_of_graph (g : graph) (p : list Z) : res Z :=
  total_prize p (vertices g).

(** walk.hh:150-159 [totalPrizeOfTour]: all but the last vertex; [--tour.end()] of an
    empty list is UB. *)
Definition total_prize_of_tour (p : list Z) (tour : list nat) : res Z :=
  match tour with
  | [] => UB EmptyList
  | _ => total_prize p (removelast tour)
  end.

(** walk.hh:178-187 [isInternalVertexOfWalk]: searches [begin+1, end-1); with fewer
    than two vertices that range is not a range (UB). *)
Definition is_internal_vertex_of_walk (w : list nat) (v : nat) : res bool :=
  if Nat.ltb (length w) 2 then UB IterPastEnd
  else Ok (memb v (removelast (tl w))).
