(** * Properties_Messages: C73, what the user is told *)
From Coq Require Import String.
From Verif Require Import Base Graph Spec M_Walk M_Gain M_Renaming Spec_Rename M_Python M_Messages Spec_Messages
  P_Messages P_Messages2 P_Messages3.
Open Scope string_scope.
Open Scope nat_scope.

(** ** Loggers *)

(** A message is printed once for every call of get_pctsp_logger so far with the name of its logger or
    a dotted prefix and a level that lets it pass, provided the level that counts lets it pass.
    Without any such call it is printed from WARNING on. *)
Theorem C73_copies : forall pre n lvl text rest, exists e out out',
  counting_level (calls_of pre) n e /\
  let passing := filter (fun c => name_prefixb (fst c) n && (snd c <=? lvl)%Z) (calls_of pre) in
  let related := filter (fun c => name_prefixb (fst c) n) (calls_of pre) in
  let k := if (e <=? lvl)%Z
           then match related with [] => if (30 <=? lvl)%Z then 1 else 0 | _ => List.length passing end else 0 in
  snd (log_run new_registry (pre ++ LSay n lvl text :: rest)) = (out ++ repeat text k ++ out')%list /\
  out = snd (log_run new_registry pre).
Proof.
  intros pre n lvl text rest. destruct (counting_exists (calls_of pre) n) as (e & C).
  destruct (log_run_lines pre n lvl text rest) as (o & o' & H & Ho). exists e, o, o'. split; auto. split; auto.
  rewrite H, (copies_calls _ _ _ _ C). do 3 f_equal. destruct (e <=? lvl)%Z; auto.
  destruct (existsb (fun c => name_prefixb (fst c) n) (calls_of pre)) eqn:X.
  - apply existsb_exists in X. destruct X as (c & I & X).
    destruct (filter (fun c => name_prefixb (fst c) n) (calls_of pre)) eqn:F; auto.
    exfalso. assert (I2 : In c (filter (fun c => name_prefixb (fst c) n) (calls_of pre))) by (apply filter_In; auto).
    rewrite F in I2. contradiction.
  - rewrite filter_none; auto. intros c I. destruct (name_prefixb (fst c) n) eqn:E; auto.
    rewrite <- X. symmetry. apply existsb_exists. eauto.
Qed.
Print Assumptions C73_copies.

(** The level that counts is one and only one. *)
Theorem C73_level : forall calls n, exists e, counting_level calls n e /\ forall e', counting_level calls n e' -> e' = e.
Proof.
  intros. destruct (counting_exists calls n) as (e & C). exists e. split; auto. intros e' C'. eapply counting_fun; eauto.
Qed.
Print Assumptions C73_level.

Example C73_copies_case :
  counting_level [(["a"], 20%Z); (["a"; "b"], 0%Z); (["a"], 10%Z)] ["a"; "b"] 10 /\
  snd (log_run new_registry [LGet ["a"] 20; LGet ["a"; "b"] 0; LSay ["a"; "b"] 20 "once more"; LGet ["a"] 10;
         LSay ["a"; "b"] 15 "low"; LSay ["c"] 25 "never"; LSay ["c"] 30 "last resort"]) =
    ["once more"; "once more"; "low"; "low"; "last resort"].
Proof.
  split; [|vm_compute; reflexivity]. exists ["a"], ["b"]. split; auto. split.
  - left. exists [(["a"], 20%Z); (["a"; "b"], 0%Z)], []. auto.
  - split; [left; discriminate|]. intros k' x k'' H. destruct k' as [|y k']; [|destruct k'; discriminate].
    inversion H; subst. left. exists [(["a"], 20%Z)], [(["a"], 10%Z)]. split; auto. cbn. intuition discriminate.
Qed.

(** A command prints every message of its level and above exactly once and no other, if neither its
    name nor a prefix of it was asked for before. *)
Theorem C73_command : forall pre n level says, level <> 0%Z ->
  (forall m l, In (m, l) (calls_of pre) -> ~ name_prefix m n) ->
  snd (log_run new_registry (pre ++ command_log n level says)) =
  (snd (log_run new_registry pre) ++ map snd (filter (fun s => level <=? fst s)%Z says))%list.
Proof. exact command_lines. Qed.
Print Assumptions C73_command.

(** Asked for level 0, which stands for everything, it prints only warnings and worse. *)
Theorem C73_level_zero : forall pre n says, n <> [] ->
  (forall m l, In (m, l) (calls_of pre) -> ~ name_prefix m n) ->
  snd (log_run new_registry (pre ++ command_log n 0 says)) =
  (snd (log_run new_registry pre) ++ map snd (filter (fun s => 30 <=? fst s)%Z says))%list.
Proof. exact command_lines_zero. Qed.
Print Assumptions C73_level_zero.

Theorem C73_level_zero_refuted : exists n level says,
  snd (log_run new_registry (import_lab ++ command_log n level says)) <>
  map snd (filter (fun s => level <=? fst s)%Z says).
Proof. exists ["tspwp-lab-cost_cover"], 0%Z, [(20%Z, "Vial is done")]. vm_compute. discriminate. Qed.
Print Assumptions C73_level_zero_refuted.

Example C73_command_case :
  (forall m l, In (m, l) (calls_of import_lab) -> ~ name_prefix m ["tspwp-lab-cost_cover"]) /\
  snd (log_run new_registry (import_lab ++ command_log ["tspwp-lab-cost_cover"] 20
        [(20%Z, "Vial is done"); (10%Z, "detail"); (40%Z, "failed")])) = ["Vial is done"; "failed"].
Proof.
  split; [|vm_compute; reflexivity]. cbn. intros m l H (k & E).
  repeat (destruct H as [H|H]; [inversion H; subst; discriminate|]). contradiction.
Qed.

(** The logger that run_algorithm and run_preprocessing use by default has been asked for twice before
    either is called, and prints everything twice. *)
Theorem C73_default_logger : forall says,
  snd (log_run new_registry (import_lab ++ map (fun s => LSay ["run_algorithm"] (fst s) (snd s)) says)) =
  flat_map (fun s => if (20 <=? fst s)%Z then [snd s; snd s] else []) says.
Proof.
  intro says. rewrite log_run_calls.
  rewrite (says_lines _ _ _ (fun l => if (20 <=? l)%Z then 2 else 0)).
  - cbn [app]. change (snd (log_run new_registry import_lab)) with (@nil string). cbn [app].
    apply flat_map_ext. intro s. destruct (20 <=? fst s)%Z; reflexivity.
  - intro l. rewrite copies_calls with (e := 20%Z).
    + destruct (20 <=? l)%Z eqn:E; auto. cbn. rewrite E. reflexivity.
    + exists ["run_algorithm"], []. split; auto. split; [|split; [left; discriminate|intros k' x k'' H; destruct k'; discriminate]].
      left. exists [(["run_heuristic"], 20%Z); (["run_algorithm"], 20%Z)], [(["Lab"], 20%Z)]. split; auto.
      cbn. intuition discriminate.
Qed.
Print Assumptions C73_default_logger.

Theorem C73_default_logger_refuted : exists message,
  snd (log_run new_registry (import_lab ++ [LSay ["run_algorithm"] 20 message])) <> [message].
Proof. exists "Removed 0 leaf vertices and 0 edges ". vm_compute. discriminate. Qed.
Print Assumptions C73_default_logger_refuted.

(** The command that writes all tables: in the turn of the i-th dataset the messages about the dataset
    and the heuristics come i times. *)
Theorem C73_all_tables : forall ts, snd (log_run new_registry (all_tables_log ts)) = numbered_lines 1 ts.
Proof. exact all_tables_lines. Qed.
Print Assumptions C73_all_tables.

Definition londonaq_tables := mkTable "londonaq" false "l.csv" "l.tex" "lh.tex" None (Some "no l cost cover") None None.
Definition tspwplib_tables := mkTable "tspwplib" true "t.csv" "t.tex" "th.tex" None None (Some "no t heuristics") None.

Theorem C73_all_tables_refuted : exists ts,
  snd (log_run new_registry (all_tables_log ts)) <> flat_map (turn_lines 1) ts.
Proof. exists [londonaq_tables; tspwplib_tables]. vm_compute. discriminate. Qed.
Print Assumptions C73_all_tables_refuted.

Example C73_all_tables_case : snd (log_run new_registry (all_tables_log [londonaq_tables; tspwplib_tables])) =
  ["Generating dataset tables for londonaq"; "Reading dataset CSV from l.csv"; "Writing dataset LaTeX table to l.tex";
   "Generating cost_cover table on londonaq dataset"; "no l cost cover";
   "Generating heuristics table on londonaq dataset"; "Writing table to LaTeX file: lh.tex";
   "Generating tailing_off tables on londonaq dataset";
   "Generating dataset tables for tspwplib"; "Reading dataset CSV from t.csv"; "Reading dataset CSV from t.csv";
   "Aggregating dataset stats."; "Aggregating dataset stats."; "Writing dataset LaTeX table to t.tex";
   "Writing dataset LaTeX table to t.tex"; "Generating cost_cover table on tspwplib dataset";
   "Generating heuristics table on tspwplib dataset"; "no t heuristics"; "Generating tailing_off tables on tspwplib dataset"].
Proof. vm_compute. reflexivity. Qed.

(** Preprocessing says what it removed: the numbers in its messages add up to what is gone. *)
Theorem C73_preprocessing : forall component bicomps depth pre g root h,
  run_preprocessing component bicomps depth pre g root = Ok h ->
  exists d1 d2 d3 : Z * Z,
    preprocessing_messages component bicomps depth pre g root =
      ((if pre_components pre then [removed_components d1] else []) ++
       (if pre_leaves pre then [removed_leaves d2] else []) ++
       (if pre_one_connected pre then [removed_one_connected d3] else []))%list /\
    (fst d1 + fst d2 + fst d3 = fst (graph_size g) - fst (graph_size h))%Z /\
    (snd d1 + snd d2 + snd d3 = snd (graph_size g) - snd (graph_size h))%Z /\
    (pre_components pre = false -> d1 = (0, 0)%Z) /\ (pre_leaves pre = false -> d2 = (0, 0)%Z) /\
    (pre_one_connected pre = false -> d3 = (0, 0)%Z).
Proof. exact preprocessing_said. Qed.
Print Assumptions C73_preprocessing.

Example C73_preprocessing_case :
  let g := [(0, [1; 2]); (1, [0; 2]); (2, [1; 0; 3]); (3, [2]); (4, [])] in
  let pre := mkPre true true false false false in
  run_preprocessing (fun _ _ => [0; 1; 2; 3]) (fun _ => []) 9 pre g 0 = Ok [(0, [1; 2]); (1, [0; 2]); (2, [1; 0])] /\
  preprocessing_messages (fun _ _ => [0; 1; 2; 3]) (fun _ => []) 9 pre g 0 =
    ["Removed 1 disconnected vertices and 0 edges "; "Removed 1 leaf vertices and 1 edges "].
Proof. vm_compute. auto. Qed.

(** ** Exceptions in Python *)

(** The text of an exception reaches Python unless the class hides it, ... *)
Theorem C73_error_text : forall x, snd (python_error x) = meant_text x <->
  (forall v, x <> VertexX v) /\ (forall v, x <> SelfLoopX v).
Proof. exact error_text. Qed.
Print Assumptions C73_error_text.

(** ... which two of them do: the vertex that is missing is not told. *)
Theorem C73_error_text_refuted :
  (exists v, python_error (VertexX v) = ("RuntimeError", "std::exception") /\ meant_text (VertexX v) = "Vertex not found: 7") /\
  (exists v, python_error (SelfLoopX v) = ("RuntimeError", "Caught an unknown exception!") /\
     meant_text (SelfLoopX v) = "No edge between vertices: 7 and 7").
Proof. split; exists 7; vm_compute; auto. Qed.
Print Assumptions C73_error_text_refuted.

(** The class in Python is RuntimeError, except for the argument that has no edge. *)
Theorem C73_error_class : forall x,
  (fst (python_error x) = "ValueError" <-> exists u v, x = InvalidArgumentX u v) /\
  (fst (python_error x) = "ValueError" \/ fst (python_error x) = "RuntimeError").
Proof. intro x. split; [apply error_class|destruct x; cbn; auto]. Qed.
Print Assumptions C73_error_class.

(** Which handlers take which exceptions: a handler for std::exception takes all but the missing self loop. *)
Theorem C73_error_caught : forall b c, catches 3 b c = true <->
  b = c \/ b = StdException /\ c <> SelfLoopC \/ b = LogicError /\ c = InvalidArgumentC.
Proof. intros [] []; cbn; intuition congruence. Qed.
Print Assumptions C73_error_caught.

(** The text tells which exception it is, and with which vertices. *)
Theorem C73_error_distinct : forall x y,
  (forall v, x <> VertexX v) -> (forall v, x <> SelfLoopX v) -> (forall v, y <> VertexX v) -> (forall v, y <> SelfLoopX v) ->
  snd (python_error x) = snd (python_error y) -> x = y.
Proof. exact error_inj. Qed.
Print Assumptions C73_error_distinct.

Example C73_error_case : python_error (EdgeX 3 12) = ("RuntimeError", "No edge between vertices: 3 and 12") /\
  fst (python_error (InvalidArgumentX 3 12)) = "ValueError".
Proof. vm_compute. auto. Qed.

(** The exception for a walk names its first step without an edge. *)
Theorem C73_walk_error : forall g w, Forall (fun v => v < gn g) w ->
  (get_edges_in_walk g w = Throw EdgeNotFoundException <-> exists u v, walk_names g w = Some (u, v)) /\
  (forall u v, walk_names g w = Some (u, v) <-> first_missing (ge g) (steps w) u v).
Proof. exact walk_error. Qed.
Print Assumptions C73_walk_error.

(** So does that of the unitary gain. *)
Theorem C73_gain_error : forall g c p v, v < gn g -> forall rest u i best,
  gain_loop g c p v u rest i best = Throw InvalidArgument ->
  exists a b, walk_names g (u :: rest) = Some (a, b) /\ first_missing (ge g) (steps (u :: rest)) a b.
Proof. exact gain_error. Qed.
Print Assumptions C73_gain_error.

Definition path4 : graph := mkGraph 4 [(0, 1); (2, 1); (3, 0)].

Example C73_walk_error_case : Forall (fun v => v < gn path4) [0; 1; 2; 3; 1] /\
  get_edges_in_walk path4 [0; 1; 2; 3; 1] = Throw EdgeNotFoundException /\ walk_names path4 [0; 1; 2; 3; 1] = Some (2, 3) /\
  gain_loop path4 [1; 1; 1]%Z 5 3 0 [1; 2; 0] 0 (M_Float.f_zero, None) = Throw InvalidArgument /\
  walk_names path4 [0; 1; 2; 0] = Some (2, 0).
Proof. split; [repeat constructor|]. vm_compute. auto. Qed.

(** A cost for something that is no edge: the exception comes exactly then, and it names the first such
    pair by the positions of its vertices in the order of their first appearance, ... *)
Theorem C73_cost_error : forall G dict,
  Forall (fun kv => In (fst (fst kv)) (ends (ge G)) /\ In (snd (fst kv)) (ends (ge G))) dict ->
  exists bm g labels, rename_graph (ge G) = (bm, g) /\ first_appearance (ends (ge G)) labels /\
    forall c, List.length c = List.length (ge g) ->
    (fill_cost_map g c dict bm = Throw EdgeNotFoundException <->
       exists a b, first_missing (ge G) (map fst dict) a b) /\
    (forall a b, first_missing (ge G) (map fst dict) a b ->
       exists i j, nth_error labels i = Some a /\ nth_error labels j = Some b /\ fill_cost_names g bm dict = Some (i, j)).
Proof. exact rename_error. Qed.
Print Assumptions C73_cost_error.

Definition star3 : graph := mkGraph 4 [(3, 1); (1, 0); (0, 2)].

(** ... not by the names the caller gave them: here 3 and 0 are not joined, and the text denies the edge
    between 0 and 2, which is there. *)
Theorem C73_cost_error_refuted : exists G dict bm g i j,
  rename_graph (ge G) = (bm, g) /\ fill_cost_names g bm dict = Some (i, j) /\
  first_missing (ge G) (map fst dict) 3 0 /\ In (i, j) (ge G).
Proof.
  exists star3, [((3, 1), 5%Z); ((3, 0), 6%Z)], (fst (rename_graph (ge star3))), (snd (rename_graph (ge star3))), 0, 2.
  split; [vm_compute; reflexivity|]. split; [vm_compute; reflexivity|]. split; [|cbn; auto].
  exists [(3, 1)], []. split; auto. cbn. split; [repeat constructor|]. intuition congruence.
Qed.
Print Assumptions C73_cost_error_refuted.

Example C73_cost_error_case :
  Forall (fun kv : nat * nat * Z => In (fst (fst kv)) (ends (ge star3)) /\ In (snd (fst kv)) (ends (ge star3)))
    [((3, 1), 5%Z); ((3, 0), 6%Z)] /\
  fill_cost_map (snd (rename_graph (ge star3))) [0; 0; 0]%Z [((3, 1), 5%Z); ((3, 0), 6%Z)] (fst (rename_graph (ge star3)))
    = Throw EdgeNotFoundException.
Proof. split; [apply Forall_cons; [cbn; auto 12|]; apply Forall_cons; [cbn; auto 12|]; apply Forall_nil|vm_compute; reflexivity]. Qed.

(** ** Names *)

(** The names of rows and of cost cover constraints tell the kind and the variables in their order. *)
Theorem C73_row_names : forall a b,
  (sec_name a = sec_name b -> a = b) /\ (cycle_cover_name a = cycle_cover_name b -> a = b) /\
  (cost_cover_name a = cost_cover_name b -> a = b) /\
  sec_name a <> cycle_cover_name b /\ sec_name a <> cost_cover_name b /\ cycle_cover_name a <> cost_cover_name b.
Proof. exact row_names. Qed.
Print Assumptions C73_row_names.

(** The constraints of the model have names of their own. *)
Theorem C73_degree_names : forall i j vs, (degree_name i = degree_name j -> i = j) /\
  degree_name i <> sec_name vs /\ degree_name i <> cycle_cover_name vs /\ degree_name i <> cost_cover_name vs /\
  degree_name i <> "root-constraint" /\ degree_name i <> "prize-constraint".
Proof. exact degree_names. Qed.
Print Assumptions C73_degree_names.

Theorem C73_variable_names : forall i j, var_name i = var_name j -> i = j.
Proof. exact var_names. Qed.
Print Assumptions C73_variable_names.

(** A walk can be read from its text. *)
Theorem C73_walk_string : forall a b, walk_to_string a = walk_to_string b -> a = b.
Proof. exact walk_string_inj. Qed.
Print Assumptions C73_walk_string.

Example C73_names_case : sec_name [4; 11] = "SubtourElimination__var4___var11_" /\ sec_name [] = "SubtourElimination_" /\
  cycle_cover_name [0] = "CycleCover__var0_" /\ cost_cover_name [2; 0] = "cost_cover__var2___var0_" /\
  degree_name 12 = "degree-two-constraint-12" /\ walk_to_string [0; 10; 3] = "0, 10, 3, ".
Proof. vm_compute. repeat split. Qed.
