(** * M_RunAlg: running the algorithm of a vial (pctsp/lab/run_algorithm.py:150-281) and the
    wrapper of branch and cut (pctsp/algorithms/algorithms.py:25-109). Logging, times, the
    uuid, the directory of the vial and the SCIP model object are left out. *)
From Verif Require Import Base M_Dijkstra M_Solution M_ILP M_MaxFlow M_Solve M_Python M_PyCycle M_PyWrap
  M_Suurballe M_DisjointMap M_Dataset.
Open Scope nat_scope.

(** Two functions of tspwplib (not in /repo; imported at run_algorithm.py:10-23, algorithms.py:7-14):
    [is_pctsp_yes_instance(graph, quota, root_vertex, edges)], and [order_edge_list(edges)] with
    [None] if it raises EdgesNotAdjacentException or NotSimpleException. *)
Record lab_lib := mkLab {
  yes_instance : pygraph -> Z -> nat -> list (nat * nat) -> bool;
  order_edges : list (nat * nat) -> option (list (nat * nat)) }.

(** The options of a vial that run_algorithm reads (vial/model_params.py:72-92). Of the two
    floating-point numbers only the presence has an effect in the model. *)
Record model_params := mkModel {
  is_exact : bool; is_heuristic : bool; mp_heur : heuristic_params; mp_start : option algorithm_name;
  mp_cc_disjoint : option bool; mp_cc_shortest : option bool;
  mp_sec_disjoint : option bool; mp_sec_maxflow : option bool;
  mp_branching_max_depth : option Z; mp_branching_strategy : option Z;
  mp_tailing_off : option Z; mp_sepafreq : option Z;
  mp_lp_gap : option Z; mp_time_limit : option Z }.

(** A Python argument for a C++ [bool] (pypctsp.cpp:44-46,50,52; pybind11): None is false. *)
Definition py_bool (o : option bool) : bool := match o with Some b => b | None => false end.

(** A Python argument for a C++ [int] (pypctsp.cpp:42,53,54; pybind11): None is a TypeError. *)
Definition py_arg_int (o : option Z) : res Z :=
  match o with Some z => py_int z | None => Throw TypeErrorPy end.

(** A Python argument for a C++ [unsigned int] (pypctsp.cpp:43; pybind11). *)
Definition py_arg_unsigned (o : option Z) : res Z :=
  match o with
  | Some z => if andb (Z.leb 0 z) (Z.leb z (2 * int_max + 1)) then Ok z else Throw TypeErrorPy
  | None => Throw TypeErrorPy
  end.

(** A Python argument for a C++ [double] or [float] (pypctsp.cpp:51,57; pybind11). *)
Definition py_arg_float (o : option Z) : res Z :=
  match o with Some z => Ok z | None => Throw TypeErrorPy end.

(** The arguments of solve_pctsp_bind that the result depends on (algorithms.py:85-109), converted. *)
Record solve_args := mkArgs {
  sa_flags : solve_flags; sa_heur : list (nat * nat); sa_cost : list ((nat * nat) * Z);
  sa_prize : list (nat * Z); sa_quota : Z; sa_dist : list (nat * Z) }.

(** solve_pctsp, algorithms.py:25-109, up to the call of the binding. The option cycle_cover has
    its default False, as run_algorithm does not pass it. Creating the directory (74) is left
    out. *)
Definition solve_pctsp_args (L : lab_lib) (W : pygraph) (heuristic_edges : list (nat * nat)) (quota : Z)
    (root_vertex : nat) (mp : model_params) (disjoint_paths_cost : list (nat * Z)) : res solve_args :=
  let initial_yes_instance :=
    match heuristic_edges with
    | [] => []
    | _ => if yes_instance L W quota root_vertex heuristic_edges then heuristic_edges else []
    end in
  let cost_cover_disjoint_paths :=
    match disjoint_paths_cost with [] => false | _ => py_bool (mp_cc_disjoint mp) end in
  do '(cd, pd) <- py_dicts W;
  do q <- py_int quota;
  do _ <- py_arg_int (mp_branching_max_depth mp);
  do _ <- py_arg_unsigned (mp_branching_strategy mp);
  do dd <- to_map Nat.ltb disjoint_paths_cost;
  do _ <- py_arg_float (mp_lp_gap mp);
  do _ <- py_arg_int (mp_tailing_off mp);
  do _ <- py_arg_int (mp_sepafreq mp);
  do _ <- py_arg_float (mp_time_limit mp);
  Ok (mkArgs (mkFlags cost_cover_disjoint_paths (py_bool (mp_cc_shortest mp)) false
        (py_bool (mp_sec_disjoint mp)) (py_bool (mp_sec_maxflow mp))) initial_yes_instance cd pd q dd).

(** solve_pctsp, algorithms.py:25-109; SCIP makes the calls [cbs] and leaves the solutions [sols]
    (see M_Solve). *)
Definition solve_pctsp (L : lab_lib) (tb : tiebreak) (mf : flow_lib) (W : pygraph) (heuristic_edges : list (nat * nat))
    (quota : Z) (root_vertex : nat) (mp : model_params) (disjoint_paths_cost : list (nat * Z))
    (entries : list (nat * nat)) (cbs : list callback) (sols : list sol) : res (list (nat * nat)) :=
  do a <- solve_pctsp_args L W heuristic_edges quota root_vertex mp disjoint_paths_cost;
  do '(_, es) <- py_solve tb (sa_flags a) mf (py_edges W) (sa_heur a) (sa_cost a) (sa_prize a) (sa_quota a)
                   root_vertex (sa_dist a) entries cbs sols;
  Ok es.

(** The starting edges of an exact vial, run_algorithm.py:194-216. *)
Definition starting_edges (L : lab_lib) (tb : tiebreak) (set_order : list nat -> list nat) (W : pygraph) (quota : Z)
    (root : nat) (mp : model_params) (cost_map : list (nat * Z)) (paths_map : list (nat * (list nat * list nat)))
    : res (list (nat * nat)) :=
  match mp_start mp with
  | None => Ok []
  | Some h =>
    do es <- run_heuristic_exact tb set_order W quota root
      (mkParams h (mp_collapse_paths (mp_heur mp)) (mp_path_depth_limit (mp_heur mp)) (mp_step_size (mp_heur mp)))
      cost_map paths_map;
    Ok (if yes_instance L W quota root es then es else [])
  end.

(** The part of Result that is not times or names (vial/result.py:12-21). *)
Record run_result := mkResult { r_objective : Z; r_prize : Z; r_edges : list (nat * nat) }.

(** [remove_self_loops_from_edge_list] (tspwplib, not in /repo; run_algorithm.py:251). *)
Definition remove_self_loops (es : list (nat * nat)) : list (nat * nat) :=
  filter (fun e => negb (Nat.eqb (fst e) (snd e))) es.

(** [vertex_set_from_edge_list] (tspwplib, not in /repo; run_algorithm.py:262): every end point once. *)
Definition vertex_set (es : list (nat * nat)) : list nat :=
  nodup Nat.eq_dec (flat_map (fun e => [fst e; snd e]) es).

(** run_algorithm.py:247-281: the result for an edge list. If ordering fails (253) the edges
    without self loops are kept. *)
Definition make_result (L : lab_lib) (W : pygraph) (edge_list : list (nat * nat)) : res run_result :=
  let es := remove_self_loops edge_list in
  let es := match order_edges L es with Some es' => es' | None => es end in
  do objective <- py_total_cost (get_edge_attributes W) es;
  do prize <- py_total_prize (get_node_attributes W) (vertex_set es);
  Ok (mkResult objective prize es).

(** run_algorithm, run_algorithm.py:150-281. [N], [D], [s], [dist], [paths]: the split graph (see
    M_DisjointMap); [entries], [cbs], [sols]: the run of SCIP (see M_Solve). *)
Definition run_algorithm (L : lab_lib) (tb : tiebreak) (set_order : list nat -> list nat) (mf : flow_lib)
    (N : split_names) (depth : nat) (D : dgraph) (s : nat) (dist : list (nat * Z)) (paths : list (nat * list nat))
    (W : pygraph) (quota : Z) (root : nat) (mp : model_params)
    (entries : list (nat * nat)) (cbs : list callback) (sols : list sol) : res run_result :=
  do '(cost_map, paths_map) <- disjoint_maps N depth D s dist paths;
  do edge_list <-
    (if is_heuristic mp then run_heuristic_vial tb set_order W quota root (mp_heur mp) cost_map paths_map
     else if is_exact mp then
       do he <- starting_edges L tb set_order W quota root mp cost_map paths_map;
       solve_pctsp L tb mf W he quota root mp cost_map entries cbs sols
     else Throw NotImplementedErrorPy);
  make_result L W edge_list.
