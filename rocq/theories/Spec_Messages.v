(** * Spec_Messages: what the user should be told *)
From Coq Require Import String.
From Verif Require Import Base M_Python M_PyWrap M_Stats M_Messages.
Open Scope string_scope.
Open Scope nat_scope.

(** [m] is [n] or a dotted prefix of it. *)
Definition name_prefix (m n : logger_name) : Prop := exists k, n = (m ++ k)%list.

(** The same as a test. *)
Fixpoint name_prefixb (m n : logger_name) : bool :=
  match m, n with
  | [], _ => true
  | x :: m', y :: n' => String.eqb x y && name_prefixb m' n'
  | _, [] => false
  end.

(** The level that a logger was given last, after calls for (name, level): WARNING for the root
    and 0 for any other to begin with. *)
Definition own_level (calls : list (logger_name * Z)) (n : logger_name) (l : Z) : Prop :=
  (exists a b, calls = (a ++ (n, l) :: b)%list /\ ~ In n (map fst b)) \/
  (~ In n (map fst calls) /\ l = match n with [] => 30%Z | _ => 0%Z end).

(** The level that counts: that of the longest prefix which has one other than 0. *)
Definition counting_level (calls : list (logger_name * Z)) (n : logger_name) (e : Z) : Prop :=
  exists m k, n = (m ++ k)%list /\ own_level calls m e /\ (e <> 0%Z \/ m = []) /\
    forall k' x k'', k = (k' ++ x :: k'')%list -> own_level calls (m ++ k' ++ [x])%list 0.

(** The calls, in order, and the messages of a program. *)
Definition calls_of (evs : list log_event) : list (logger_name * Z) :=
  flat_map (fun e => match e with LGet n l => [(n, l)] | _ => [] end) evs.

(** What a turn of the loop over the datasets prints when the messages for the dataset and the
    heuristics come out [k] times each. *)
Definition turn_lines (k : nat) (t : table_case) : list string :=
  ([("Generating dataset tables for " ++ tb_name t)%string] ++
   repeat ("Reading dataset CSV from " ++ tb_csv t)%string k ++
   match tb_dataset t with
   | Some e => [e]
   | None => (if tb_is_tspwplib t then repeat "Aggregating dataset stats." k else []) ++
             repeat ("Writing dataset LaTeX table to " ++ tb_tex t)%string k
   end ++
   [("Generating cost_cover table on " ++ tb_name t ++ " dataset")%string] ++
   match tb_cost_cover t with Some e => [e] | None => [] end ++
   [("Generating heuristics table on " ++ tb_name t ++ " dataset")%string] ++
   match tb_heuristics t with
   | Some e => [e]
   | None => repeat ("Writing table to LaTeX file: " ++ tb_heur_tex t)%string k
   end ++
   [("Generating tailing_off tables on " ++ tb_name t ++ " dataset")%string] ++
   match tb_tailing t with Some e => [e] | None => [] end)%list.

(** The turns from the [i]-th on. *)
Fixpoint numbered_lines (i : nat) (ts : list table_case) : list string :=
  match ts with [] => [] | t :: r => (turn_lines i t ++ numbered_lines (S i) r)%list end.

(** The message that belongs to an exception. *)
Definition meant_text (x : cxx_exception) : string :=
  match x with
  | NoGainX => "Could not calculate the unitary gain for any vertices"
  | EdgeX u v => "No edge between vertices: " ++ dec (Z.of_nat u) ++ " and " ++ dec (Z.of_nat v)
  | VertexX v => "Vertex not found: " ++ dec (Z.of_nat v)
  | SelfLoopX v => "No edge between vertices: " ++ dec (Z.of_nat v) ++ " and " ++ dec (Z.of_nat v)
  | WrongSetX v => "Vertex was found in the wrong set: " ++ dec (Z.of_nat v)
  | NullVariableX => "SCIP variable pointer is NULL."
  | StepSizeX => "The step size given to the extension algorithm was larger than the tour that was given."
  | TargetX => "The target vertex has been found."
  | InvalidArgumentX u v => "Edge between " ++ dec (Z.of_nat u) ++ " and " ++ dec (Z.of_nat v) ++ " does not exist. " ++
      String (Ascii.ascii_of_nat 10) ""
  end.

(** The pair [u], [v] is the first of the pairs with no edge in between. *)
Definition first_missing (es : list (nat * nat)) (ps : list (nat * nat)) (u v : nat) : Prop :=
  let joined p := In p es \/ In (snd p, fst p) es in
  exists a b, ps = (a ++ (u, v) :: b)%list /\ Forall joined a /\ ~ joined (u, v).

(** The steps of a walk. *)
Fixpoint steps (w : list nat) : list (nat * nat) :=
  match w with u :: (v :: _) as r => (u, v) :: steps r | _ => [] end.

(** The three messages about preprocessing, given the numbers of vertices and edges. *)
Definition removed_components (d : Z * Z) : string :=
  "Removed " ++ dec (fst d) ++ " disconnected vertices and " ++ dec (snd d) ++ " edges ".
Definition removed_leaves (d : Z * Z) : string :=
  "Removed " ++ dec (fst d) ++ " leaf vertices and " ++ dec (snd d) ++ " edges ".
Definition removed_one_connected (d : Z * Z) : string :=
  "Removed " ++ dec (fst d) ++ " vertices and " ++ dec (snd d) ++ " edges not bi-connected to the root vertex.".

(** Vertices and edges of a graph. *)
Definition graph_size (g : nxgraph) : Z * Z :=
  (Z.of_nat (List.length g), Z.of_nat (List.length (edges_from [] g))).
