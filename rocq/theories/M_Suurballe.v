(** * M_Suurballe: Suurballe's algorithm for pairs of edge-disjoint paths
    (pctsp/suurballe/suurballe.py). *)
From Verif Require Import Base M_Python M_PyCycle.
Open Scope nat_scope.

(** A directed [nx.DiGraph] with one integer attribute per edge (suurballe.py:184-188,
    networkx): the dictionary of successors with their weights, in insertion order. *)
Definition dgraph := list (nat * list (nat * Z)).

(** The NULL_VERTEX of pctsp/constants/constants.py:6 (-sys.maxsize - 1) is modelled by [None]
    wherever a vertex may be null (suurballe.py:27,80,81,296,321,480,498). *)
Definition null_vertex : option nat := None.

(** [d[k] = a] on a dictionary (suurballe.py:77,302,340-342; Python): an existing key keeps
    its place, a new one goes to the end. *)
Fixpoint dset {A} (d : list (nat * A)) (k : nat) (a : A) : list (nat * A) :=
  match d with
  | [] => [(k, a)]
  | (k', b) :: r => if Nat.eqb k k' then (k', a) :: r else (k', b) :: dset r k a
  end.

(** [d[k]] on a dictionary (suurballe.py:188,301,309,339; Python): KeyError for a missing key. *)
Definition dfetch {A} (d : list (nat * A)) (k : nat) : res A :=
  match dget d k with Some a => Ok a | None => Throw KeyErrorPy end.

(** find_parents_in_shortest_path_tree, suurballe.py:19-30. *)
Definition find_parents_in_shortest_path_tree (paths : list (nat * list nat)) : list (nat * option nat) :=
  fold_left (fun parents '(v, path) =>
    dset parents v
      (if Nat.leb (List.length path) 1 then null_vertex
       else nth_error path (List.length path - 2))) paths [].

(** The loop at suurballe.py:69-71 that adds the tree edges. A vertex other than the source
    without a parent (possible only for paths that are not those of Dijkstra's algorithm) would
    become a child of the null vertex; that is outside the model ([UB NullDeref]). *)
Definition tree_edges (source : nat) (parents : list (nat * option nat)) : res nxtree :=
  foldM (fun T '(v, p) =>
    if Nat.eqb source v then Ok T
    else match p with
         | Some u => Ok (if existsb (fun e => andb (Nat.eqb (fst e) u) (Nat.eqb (snd e) v)) T
                         then T else T ++ [(u, v)])
         | None => UB NullDeref
         end) parents [].

(** The vertices of the tree in the order in which [add_edge] and [add_node] create them,
    suurballe.py:69-74. *)
Definition tree_nodes (T : nxtree) (dist : list (nat * Z)) : list nat :=
  fold_left (fun l v => if memb v l then l else l ++ [v])
    (flat_map (fun e => [fst e; snd e]) T ++ map fst dist) [].

(** preorder_recursive, suurballe.py:119-124. The state is the list [order] and the dictionary
    of the "pre" attributes. [depth] is how many nested calls the interpreter still allows. *)
Fixpoint preorder_recursive (depth : nat) (T : nxtree) (v : nat)
    (st : list nat * list (nat * Z)) : res (list nat * list (nat * Z)) :=
  match depth with
  | O => Throw RecursionErrorPy
  | S d =>
    let '(order, pre) := st in
    foldM (fun st' s => preorder_recursive d T s st') (successors T v)
      (order ++ [v], dset pre v (Z.of_nat (List.length order)))
  end.

(** preorder, suurballe.py:100-116; also returns the attributes it sets. *)
Definition preorder (depth : nat) (nodes : list nat) (T : nxtree) (source : nat)
    : res (list nat * list (nat * Z)) :=
  preorder_recursive depth T source ([], map (fun v => (v, py_maxsize)) nodes).

(** postorder_recursive, suurballe.py:146-151. *)
Fixpoint postorder_recursive (depth : nat) (T : nxtree) (v : nat)
    (st : list nat * list (nat * Z)) : res (list nat * list (nat * Z)) :=
  match depth with
  | O => Throw RecursionErrorPy
  | S d =>
    do '(order, post) <- foldM (fun st' s => postorder_recursive d T s st') (successors T v) st;
    Ok (order ++ [v], dset post v (Z.of_nat (List.length order)))
  end.

(** postorder, suurballe.py:127-143; also returns the attributes it sets. *)
Definition postorder (depth : nat) (nodes : list nat) (T : nxtree) (source : nat)
    : res (list nat * list (nat * Z)) :=
  postorder_recursive depth T source ([], map (fun v => (v, py_maxsize)) nodes).

(** is_ancestor, suurballe.py:528-546. Evaluation of [and] stops at a false left side. *)
Definition is_ancestor (pre post : list (nat * Z)) (ancestor descendant : nat) : res bool :=
  do pa <- dfetch pre ancestor;
  do pd <- dfetch pre descendant;
  if Z.leb pa pd then
    do qa <- dfetch post ancestor;
    do qd <- dfetch post descendant;
    Ok (Z.geb qa qd)
  else Ok false.

(** adjust_edge_cost, suurballe.py:154-167. *)
Definition adjust_edge_cost (original_cost distance_u distance_v : Z) : Z :=
  (distance_u - distance_v + original_cost)%Z.

(** adjust_edge_cost_for_graph, suurballe.py:170-190. *)
Definition adjust_edge_cost_for_graph (G : dgraph) (dist : list (nat * Z))
    : res (list (nat * list (nat * Z))) :=
  mapM (fun '(u, nbrs) =>
    do row <- mapM (fun '(v, w) =>
      do du <- dfetch dist u;
      do dv <- dfetch dist v;
      Ok (v, adjust_edge_cost w du dv)) nbrs;
    Ok (u, row)) G.

(** The search for the insertion place, suurballe.py:216-239: before the first incident edge
    whose other end point has a larger preorder number than [shadow]; also covers the empty
    list of lines 211-214. *)
Fixpoint insert_incident (pre : list (nat * Z)) (spotlight shadow : nat) (edge : nat * nat)
    (l : list (nat * nat)) : res (list (nat * nat)) :=
  match l with
  | [] => Ok [edge]
  | e :: r =>
    let other := if Nat.eqb (fst e) spotlight then snd e else fst e in
    do po <- dfetch pre other;
    do ps <- dfetch pre shadow;
    if Z.gtb po ps then Ok (edge :: e :: r)
    else do r' <- insert_incident pre spotlight shadow edge r; Ok (e :: r')
  end.

(** add_edges_incident_to_endpoints, suurballe.py:193-239. *)
Definition add_edges_incident_to_endpoints (pre : list (nat * Z)) (tail head : nat)
    (inc : list (nat * list (nat * nat))) : res (list (nat * list (nat * nat))) :=
  do lt <- dfetch inc tail;
  do lt' <- insert_incident pre tail head (tail, head) lt;
  let inc1 := dset inc tail lt' in
  do lh <- dfetch inc1 head;
  do lh' <- insert_incident pre head tail (tail, head) lh;
  Ok (dset inc1 head lh').

(** The part of a SuurballeTree that does not change after its construction,
    suurballe.py:54-83,278-284. *)
Record stree := mkTree {
  t_source : nat;
  t_nodes : list nat;
  t_edges : nxtree;
  t_dist : list (nat * Z);                 (* distance_from_source *)
  t_cost : list (nat * list (nat * Z));    (* transformed_cost *)
  t_pre : list (nat * Z);
  t_post : list (nat * Z)
}.

(** The part that the algorithm changes, suurballe.py:56-67. *)
Record sst := mkSst {
  s_td : list (nat * Z);                   (* tentative_distance, d *)
  s_pred : list (nat * option nat);        (* tentative_predecessor, p *)
  s_cause : list (nat * option nat);       (* process_cause, q *)
  s_lab : list (nat * bool);               (* labeled *)
  s_heap : list (Z * nat);                 (* heap_queue *)
  s_inc : list (nat * list (nat * nat));   (* edges_incident_to_vertex, i *)
  s_children : list (nat * list nat);
  s_parent : list (nat * option nat)
}.

(** [T.has_edge(u, w)] (suurballe.py:290,334; networkx). *)
Definition has_edge (T : nxtree) (u w : nat) : bool :=
  existsb (fun e => andb (Nat.eqb (fst e) u) (Nat.eqb (snd e) w)) T.

(** [list.remove(edge)] (suurballe.py:335-336; Python): ValueError if it is not there. *)
Fixpoint remove_edge (e : nat * nat) (l : list (nat * nat)) : res (list (nat * nat)) :=
  match l with
  | [] => Throw ValueErrorPy
  | f :: r => if andb (Nat.eqb (fst f) (fst e)) (Nat.eqb (snd f) (snd e)) then Ok r
              else do r' <- remove_edge e r; Ok (f :: r')
  end.

(** Field updates (suurballe.py:335-343). *)
Definition set_inc (s : sst) inc :=
  mkSst (s_td s) (s_pred s) (s_cause s) (s_lab s) (s_heap s) inc (s_children s) (s_parent s).

(** process, suurballe.py:329-343. *)
Definition process (T : stree) (s : sst) (u w v : nat) : res sst :=
  if has_edge (t_edges T) u w then Ok s
  else
    do lu <- dfetch (s_inc s) u;
    do lu' <- remove_edge (u, w) lu;
    let inc1 := dset (s_inc s) u lu' in
    do lw <- dfetch inc1 w;
    do lw' <- remove_edge (u, w) lw;
    let s1 := set_inc s (dset inc1 w lw') in
    do dv <- dfetch (s_td s) v;
    if Z.eqb dv py_maxsize then Throw ValueErrorPy
    else
      do row <- dfetch (t_cost T) u;
      do c <- dfetch row w;
      do dw <- dfetch (s_td s) w;
      if Z.ltb (dv + c) dw then
        Ok (mkSst (dset (s_td s1) w (dv + c)%Z) (dset (s_pred s1) w (Some u))
              (dset (s_cause s1) w (Some v)) (s_lab s1) ((dv + c, w)%Z :: s_heap s1)
              (s_inc s1) (s_children s1) (s_parent s1))
      else Ok s1.

(** The loop [for u, w in T.edges_incident_to_vertex[v]: process(T, u, w, v)],
    suurballe.py:305-306. The iterator of a Python list is an index [i] into the list as it is
    now; the body removes elements from the list. The fuel is at least the number of steps. *)
Fixpoint process_incident (fuel : nat) (T : stree) (s : sst) (v i : nat) : res sst :=
  do l <- dfetch (s_inc s) v;
  match nth_error l i with
  | None => Ok s
  | Some (u, w) =>
    match fuel with
    | O => OutOfFuel
    | S f => do s' <- process T s u w v; process_incident f T s' v (S i)
    end
  end.

(** scan_parent, suurballe.py:416-438: the same kind of loop. *)
Fixpoint scan_parent (fuel : nat) (T : stree) (s : sst) (x v i : nat) : res sst :=
  do l <- dfetch (s_inc s) x;
  match nth_error l i with
  | None => Ok s
  | Some (u, w) =>
    match fuel with
    | O => OutOfFuel
    | S f =>
      do b1 <- (if Nat.eqb u x then Ok false else is_ancestor (t_pre T) (t_post T) v u);
      do b2 <- (if b1 then Ok true
                else if Nat.eqb w x then Ok false else is_ancestor (t_pre T) (t_post T) v w);
      do s' <- (if b2 then process T s u w v else Ok s);
      scan_parent f T s' x v (S i)
    end
  end.

(** Whether the other end of the edge is in the subtree of [y] (suurballe.py:382-389,405-410). *)
Definition wasted (T : stree) (x y u w : nat) : res bool :=
  do b1 <- (if Nat.eqb u x then Ok false else is_ancestor (t_pre T) (t_post T) y u);
  if b1 then Ok true
  else if Nat.eqb w x then Ok false else is_ancestor (t_pre T) (t_post T) y w.

(** The forward scan, suurballe.py:376-398; returns the state and the two indices. The indices
    are integers since they can become -1. *)
Fixpoint scan_forward (fuel : nat) (T : stree) (s : sst) (x y v size : nat) (f b : Z)
    : res (sst * Z * Z) :=
  do l <- dfetch (s_inc s) x;
  if Z.ltb f (Z.of_nat (List.length l)) then
    match fuel with
    | O => OutOfFuel
    | S fu =>
      match nth_error l (Z.to_nat f) with
      | None => Throw IndexErrorPy
      | Some (u, w) =>
        do stop <- wasted T x y u w;
        if stop then Ok (s, f, b)
        else
          do s' <- process T s u w v;
          do l' <- dfetch (s_inc s') x;
          if Nat.ltb (List.length l') size
          then scan_forward fu T s' x y v (List.length l') f (b - 1)%Z
          else scan_forward fu T s' x y v size (f + 1)%Z b
      end
    end
  else Ok (s, f, b).

(** The backward scan, suurballe.py:401-413; an index beyond the end is an IndexError. *)
Fixpoint scan_backward (fuel : nat) (T : stree) (s : sst) (x y v : nat) (f b : Z) : res sst :=
  if Z.gtb b f then
    match fuel with
    | O => OutOfFuel
    | S fu =>
      do l <- dfetch (s_inc s) x;
      match nth_error l (Z.to_nat b) with
      | None => Throw IndexErrorPy
      | Some (u, w) =>
        do stop <- wasted T x y u w;
        if stop then Ok s
        else do s' <- process T s u w v; scan_backward fu T s' x y v f (b - 1)%Z
      end
    end
  else Ok s.

(** scan, suurballe.py:362-413. *)
Definition scan (T : stree) (s : sst) (x y v : nat) : res sst :=
  do l <- dfetch (s_inc s) x;
  let size := List.length l in
  do '(s', f, b) <- scan_forward (S size) T s x y v size 0%Z (Z.of_nat size - 1)%Z;
  scan_backward (S size) T s' x y v f b.

(** traverse_subtree, suurballe.py:346-359. *)
Fixpoint traverse_subtree (fuel : nat) (T : stree) (s : sst) (queue : list nat) (y v : nat)
    (parent : bool) : res sst :=
  match queue with
  | [] => Ok s
  | x :: q =>
    match fuel with
    | O => OutOfFuel
    | S f =>
      do kids <- dfetch (s_children s) x;
      do s' <- (if parent
                then do l <- dfetch (s_inc s) x; scan_parent (List.length l) T s x v 0
                else scan T s x y v);
      traverse_subtree f T s' (q ++ kids) y v parent
    end
  end.

(** The smallest pair of a heap in Python's lexicographic order (heapq, suurballe.py:300). *)
Fixpoint heap_min (m : Z * nat) (h : list (Z * nat)) : Z * nat :=
  match h with
  | [] => m
  | (d, v) :: r =>
    heap_min (if orb (Z.ltb d (fst m)) (andb (Z.eqb d (fst m)) (Nat.ltb v (snd m))) then (d, v) else m) r
  end.

(** Removing one occurrence of a pair (heapq, suurballe.py:300). *)
Fixpoint heap_remove (m : Z * nat) (h : list (Z * nat)) : list (Z * nat) :=
  match h with
  | [] => []
  | (d, v) :: r => if andb (Z.eqb d (fst m)) (Nat.eqb v (snd m)) then r else (d, v) :: heap_remove m r
  end.

(** [heappop] (heapq, suurballe.py:300): removes and returns the smallest pair. Only the
    multiset of pairs in the heap matters, so a heap is modelled by a list in any order. *)
Definition heappop (h : list (Z * nat)) : option (Z * nat * list (Z * nat)) :=
  match h with
  | [] => None
  | m :: r => let m' := heap_min m r in Some (m', heap_remove m' h)
  end.

(** [list.remove(w)] on the children of a vertex (suurballe.py:315,322; Python). *)
Fixpoint remove_child (w : nat) (l : list nat) : res (list nat) :=
  match l with
  | [] => Throw ValueErrorPy
  | x :: r => if Nat.eqb x w then Ok r else do r' <- remove_child w r; Ok (x :: r')
  end.

(** A vertex becomes labelled (suurballe.py:302). *)
Definition set_label (s : sst) v :=
  mkSst (s_td s) (s_pred s) (s_cause s) (dset (s_lab s) v true) (s_heap s) (s_inc s) (s_children s) (s_parent s).
(** The heap after heappop (suurballe.py:300). *)
Definition set_heap (s : sst) h :=
  mkSst (s_td s) (s_pred s) (s_cause s) (s_lab s) h (s_inc s) (s_children s) (s_parent s).
(** The children of a vertex change (suurballe.py:315,322). *)
Definition set_children (s : sst) v l :=
  mkSst (s_td s) (s_pred s) (s_cause s) (s_lab s) (s_heap s) (s_inc s) (dset (s_children s) v l) (s_parent s).
(** The parent of a vertex changes (suurballe.py:321). *)
Definition set_parent (s : sst) v p :=
  mkSst (s_td s) (s_pred s) (s_cause s) (s_lab s) (s_heap s) (s_inc s) (s_children s) (dset (s_parent s) v p).

(** The body of the main loop for a vertex that becomes labelled, suurballe.py:302-324. *)
Definition label_vertex (T : stree) (s0 : sst) (v : nat) : res sst :=
  let s := set_label s0 v in
  do l <- dfetch (s_inc s) v;
  do s1 <- process_incident (List.length l) T s v 0;
  do pv <- dfetch (s_parent s1) v;
  do s2 <- match pv with
           | None => Ok s1
           | Some p =>
             do lp <- dfetch (s_lab s1) p;
             if lp then Ok s1
             else
               do kids <- dfetch (s_children s1) p;
               do s2 <- (if memb v kids
                         then do kids' <- remove_child v kids; Ok (set_children s1 p kids')
                         else Ok s1);
               traverse_subtree (S (List.length (t_nodes T))) T s2 [p] p v true
           end;
  do kids <- dfetch (s_children s2) v;
  foldM (fun st w =>
    let st1 := set_parent st w null_vertex in
    do ch <- dfetch (s_children st1) v;
    do ch' <- remove_child w ch;
    let st2 := set_children st1 v ch' in
    do lw <- dfetch (s_lab st2) w;
    if lw then Ok st2
    else traverse_subtree (S (List.length (t_nodes T))) T st2 [w] w v false) kids s2.

(** The main loop, suurballe.py:299-324. *)
Fixpoint main_loop (fuel : nat) (T : stree) (s : sst) : res sst :=
  match heappop (s_heap s) with
  | None => Ok s
  | Some ((_, v), h) =>
    match fuel with
    | O => OutOfFuel
    | S f =>
      let s0 := set_heap s h in
      do lv <- dfetch (s_lab s0) v;
      do dv <- (if lv then Ok py_maxsize else dfetch (s_td s0) v);
      if Z.ltb dv py_maxsize
      then do s1 <- label_vertex T s0 v; main_loop f T s1
      else main_loop f T s0
    end
  end.

(** [G.subgraph(S)] of a directed graph (suurballe.py:272; networkx). *)
Definition dsubgraph (G : dgraph) (keep : nat -> bool) : dgraph :=
  map (fun '(v, l) => (v, filter (fun e => keep (fst e)) l)) (filter (fun '(v, _) => keep v) G).

(** The edges of a directed graph (suurballe.py:289; networkx). *)
Definition dedges (G : dgraph) : list (nat * nat) :=
  flat_map (fun '(u, l) => map (fun e => (u, fst e)) l) G.

(** suurballe_shortest_vertex_disjoint_paths, suurballe.py:242-326. [dist] and [paths] are the
    result of [nx.single_source_dijkstra] (networkx), which is not modelled. [depth] is the
    number of nested calls the interpreter still allows. *)
Definition suurballe_init (depth : nat) (G : dgraph) (source : nat) (dist : list (nat * Z))
    (paths : list (nat * list nat)) : res (stree * sst) :=
  let sub := dsubgraph G (fun v => memb v (map fst dist)) in
  let parents := find_parents_in_shortest_path_tree paths in
  do T <- tree_edges source parents;
  let nodes := tree_nodes T dist in
  do cost <- adjust_edge_cost_for_graph sub dist;
  do '(_, pre) <- preorder depth nodes T source;
  do '(_, post) <- postorder depth nodes T source;
  do inc <- foldM (fun inc '(u, v) =>
              if has_edge T u v then Ok inc else add_edges_incident_to_endpoints pre u v inc)
              (dedges sub) (map (fun v => (v, [])) (map fst sub));
  let children := map (fun v => (v, successors T v)) nodes in
  do par <- mapM (fun v => match predecessors T v with
                           | p :: _ => Ok (v, Some p)
                           | [] => Throw IndexErrorPy
                           end) (filter (fun v => negb (Nat.eqb v source)) nodes);
  let td := map (fun '(v, _) => (v, if Nat.eqb v source then 0%Z else py_maxsize)) dist in
  Ok (mkTree source nodes T dist cost pre post,
      mkSst td (map (fun '(v, _) => (v, null_vertex)) dist) (map (fun '(v, _) => (v, null_vertex)) dist)
        (map (fun '(v, _) => (v, false)) dist)
        (map (fun '(v, d) => (d, v)) td) inc children (dset par source null_vertex)).

(** suurballe_shortest_vertex_disjoint_paths, suurballe.py:242-326. The fuel of the main loop
    is one for every vertex and edge (each edge is processed at most once). *)
Definition suurballe_shortest_vertex_disjoint_paths (depth : nat) (G : dgraph) (source : nat)
    (dist : list (nat * Z)) (paths : list (nat * list nat)) : res (stree * sst) :=
  do '(T, s) <- suurballe_init depth G source dist paths;
  do s' <- main_loop (List.length dist + List.length (dedges G)) T s;
  Ok (T, s').

(** The marking loop, suurballe.py:474-485. Running out of fuel: does not terminate. *)
Fixpoint mark_loop (fuel : nat) (s : sst) (source x : nat) (mark : list nat) : res (list nat) :=
  if Nat.eqb x source then Ok mark
  else match fuel with
  | O => OutOfFuel
  | S f =>
    let mark' := if memb x mark then mark else x :: mark in
    do q <- dfetch (s_cause s) x;
    match q with
    | None => Throw ValueErrorPy
    | Some y => mark_loop f s source (if Nat.eqb x y then source else y) mark'
    end
  end.

(** One backward traversal, suurballe.py:489-507; returns the path and the remaining marks. *)
Fixpoint back_loop (fuel : nat) (T : stree) (s : sst) (source x : nat) (path mark : list nat)
    : res (list nat * list nat) :=
  if Nat.eqb x source then Ok (path, mark)
  else match fuel with
  | O => OutOfFuel
  | S f =>
    if memb x mark then
      do p <- dfetch (s_pred s) x;
      match p with
      | None => Throw ValueErrorPy
      | Some y => back_loop f T s source y (y :: path) (filter (fun z => negb (Nat.eqb z x)) mark)
      end
    else
      match predecessors (t_edges T) x with
      | [] => Throw IndexErrorPy
      | y :: _ => back_loop f T s source y (y :: path) mark
      end
  end.

(** extract_suurballe_edge_disjoint_paths, suurballe.py:441-509. Between two unmarkings the
    traversal climbs the tree, so (n+1)^2 steps are enough whenever it terminates. *)
Definition extract_suurballe_edge_disjoint_paths (T : stree) (s : sst) (source target : nat)
    : res (list nat * list nat) :=
  if Nat.eqb source target then Ok ([source], [])
  else
    do dt <- dfetch (s_td s) target;
    if Z.eqb dt py_maxsize then Ok ([], [])
    else
      let n := S (List.length (t_nodes T)) in
      do mark <- mark_loop n s source target [];
      do '(p1, mark1) <- back_loop (n * n) T s source target [target] mark;
      do '(p2, _) <- back_loop (n * n) T s source target [target] mark1;
      Ok (p1, p2).

(** edge_disjoint_path_cost, suurballe.py:512-525. *)
Definition edge_disjoint_path_cost (T : stree) (s : sst) (target : nat) : res Z :=
  do dt <- dfetch (s_td s) target;
  if Z.eqb dt py_maxsize then Ok py_maxsize
  else do w <- dfetch (t_dist T) target; Ok (2 * w + dt)%Z.
