(** * P_Messages2: proofs about M_Messages: programs, exceptions and names *)
From Coq Require Import String Ascii.
From Verif Require Import Base Graph Spec P_Base M_Walk M_Graph M_Gain M_Renaming M_Python Spec_Rename P_Renaming M_Stats P_Stats
  M_Messages Spec_Messages P_Messages.
Open Scope string_scope.
Open Scope nat_scope.

(** ** Programs *)

Lemma log_run_calls pre evs :
  snd (log_run new_registry (pre ++ evs)) =
  (snd (log_run new_registry pre) ++ snd (log_run (run_calls (calls_of pre)) evs))%list.
Proof.
  rewrite log_run_app. pose proof (log_run_registry new_registry pre) as R.
  destruct (log_run new_registry pre) as (r1, o1). cbn in R. unfold run_calls. rewrite <- R.
  destruct (log_run r1 evs). reflexivity.
Qed.

Lemma filter_none (A : Type) (f : A -> bool) l : (forall x, In x l -> f x = false) -> filter f l = [].
Proof. induction l; cbn; intro H; auto. rewrite H by auto. auto. Qed.

Lemma says_lines reg n says (k : Z -> nat) : (forall l, copies reg n l = k l) ->
  snd (log_run reg (map (fun s => LSay n (fst s) (snd s)) says)) =
  flat_map (fun s => repeat (snd s) (k (fst s))) says.
Proof.
  intro H. induction says as [|s says IH]; cbn; auto.
  destruct (log_run reg (map (fun s => LSay n (fst s) (snd s)) says)) as (r, o). cbn in IH |- *.
  now rewrite IH, H.
Qed.

Lemma flat_repeat_filter (A B : Type) (p : A -> bool) (f : A -> B) l :
  flat_map (fun s => repeat (f s) (if p s then 1 else 0)) l = map f (filter p l).
Proof. induction l as [|a l IH]; cbn; auto. rewrite IH. now destruct (p a). Qed.

Lemma command_lines pre n level says : level <> 0%Z ->
  (forall m l, In (m, l) (calls_of pre) -> ~ name_prefix m n) ->
  snd (log_run new_registry (pre ++ command_log n level says)) =
  (snd (log_run new_registry pre) ++ map snd (filter (fun s => level <=? fst s)%Z says))%list.
Proof.
  intros L N. rewrite log_run_calls. f_equal. unfold command_log. cbn [log_run].
  change (get_pctsp_logger n level (run_calls (calls_of pre)))
    with (get_pctsp_logger (fst (n, level)) (snd (n, level)) (run_calls (calls_of pre))).
  rewrite <- run_snoc.
  rewrite says_lines with (k := fun l => if (level <=? l)%Z then 1 else 0).
  - apply (flat_repeat_filter _ _ (fun s => level <=? fst s)%Z).
  - intro l. rewrite copies_calls with (e := level).
    + destruct (level <=? l)%Z eqn:E; auto.
      rewrite existsb_app, filter_app, filter_none.
      * cbn. assert (P : name_prefixb n n = true) by (apply prefixb_spec; exists []; now rewrite app_nil_r).
        rewrite P, E, orb_true_r. reflexivity.
      * intros (m, x) I. destruct (name_prefixb (fst (m, x)) n) eqn:X; auto.
        apply prefixb_spec in X. now apply N in I.
    + exists n, []. rewrite app_nil_r. split; auto. split; [|split; [auto|intros k' x k'' H; destruct k'; discriminate]].
      left. exists (calls_of pre), []. auto.
Qed.

Lemma command_lines_zero pre n says : n <> [] ->
  (forall m l, In (m, l) (calls_of pre) -> ~ name_prefix m n) ->
  snd (log_run new_registry (pre ++ command_log n 0 says)) =
  (snd (log_run new_registry pre) ++ map snd (filter (fun s => 30 <=? fst s)%Z says))%list.
Proof.
  intros NE N. rewrite log_run_calls. f_equal. unfold command_log. cbn [log_run].
  change (get_pctsp_logger n 0 (run_calls (calls_of pre)))
    with (get_pctsp_logger (fst (n, 0%Z)) (snd (n, 0%Z)) (run_calls (calls_of pre))).
  rewrite <- run_snoc.
  rewrite says_lines with (k := fun l => if (30 <=? l)%Z then 1 else 0).
  - apply (flat_repeat_filter _ _ (fun s => 30 <=? fst s)%Z).
  - intro l. rewrite copies_calls with (e := 30%Z).
    + destruct (30 <=? l)%Z eqn:E; auto.
      rewrite existsb_app, filter_app, filter_none.
      * cbn. assert (P : name_prefixb n n = true) by (apply prefixb_spec; exists []; now rewrite app_nil_r).
        assert (Z0 : (0 <=? l)%Z = true) by (apply Z.leb_le; apply Z.leb_le in E; lia).
        rewrite P, Z0, orb_true_r. reflexivity.
      * intros (m, x) I. destruct (name_prefixb (fst (m, x)) n) eqn:X; auto.
        apply prefixb_spec in X. now apply N in I.
    + assert (NI : forall m, m <> n -> name_prefix m n -> ~ In m (map fst (calls_of pre ++ [(n, 0%Z)]))).
      { intros m D P I. rewrite map_app, in_app_iff in I. cbn in I. destruct I as [I|[I|[]]]; [|congruence].
        apply in_map_iff in I. destruct I as ((m', x) & E & I). cbn in E. subst m'. eapply N; eauto. }
      exists [], n. split; auto. split.
      * right. split; auto. apply NI; [congruence|]. now exists n.
      * split; [right; reflexivity|]. intros k' x k'' H. cbn [app].
        destruct k'' as [|y k''].
        -- subst n. left. exists (calls_of pre), []. auto.
        -- right. split.
           ++ apply NI.
              ** intro E. subst n. apply (f_equal (@List.length string)) in E. rewrite !app_length in E. cbn in E. lia.
              ** subst n. exists (y :: k''). now rewrite <- app_assoc.
           ++ destruct k'; reflexivity.
Qed.

(** Loggers of one component, all at level 20. *)
Lemma own_twenty (calls : list (logger_name * Z)) n : Forall (fun c : logger_name * Z => snd c = 20%Z) calls -> In n (map fst calls) -> own_level calls n 20.
Proof.
  induction calls as [|(m, l) calls IH]; cbn; intros F I; [contradiction|].
  inversion F; subst. cbn in H1. subst l.
  destruct (in_dec (list_eq_dec string_dec) n (map fst calls)) as [J|J].
  - destruct (IH H2 J) as [(a & b & -> & H)|(H & _)]; [|contradiction].
    left. exists ((m, 20%Z) :: a), b. auto.
  - destruct I as [->|I]; [|contradiction]. left. exists [], calls. auto.
Qed.

Lemma copies_twenty (calls : list (logger_name * Z)) s lvl : Forall (fun c : logger_name * Z => snd c = 20%Z /\ List.length (fst c) = 1) calls ->
  In [s] (map fst calls) -> (20 <= lvl)%Z ->
  copies (run_calls calls) [s] lvl = List.length (filter (fun c => name_eqb (fst c) [s]) calls).
Proof.
  intros F I L. rewrite copies_calls with (e := 20%Z).
  - replace (20 <=? lvl)%Z with true by (symmetry; now apply Z.leb_le).
    assert (X : forall c, In c calls -> name_prefixb (fst c) [s] = name_eqb (fst c) [s] /\ (snd c <=? lvl)%Z = true).
    { intros c J. rewrite Forall_forall in F. apply F in J. destruct J as (J1 & J2). split.
      - destruct (fst c) as [|x [|y r]]; try discriminate. reflexivity.
      - rewrite J1. now apply Z.leb_le. }
    assert (E : existsb (fun c => name_prefixb (fst c) [s]) calls = true).
    { apply existsb_exists. apply in_map_iff in I. destruct I as (c & I1 & I2). exists c. split; auto.
      rewrite (proj1 (X c I2)), I1. apply name_eqb_refl. }
    rewrite E. f_equal. apply filter_ext_in. intros c J. destruct (X c J) as (-> & ->). apply andb_true_r.
  - exists [s], []. split; auto. split; [|split; [left; lia|intros k' x k'' H; destruct k'; discriminate]].
    apply own_twenty; auto. eapply Forall_impl; [|exact F]. cbn. tauto.
Qed.

Definition D20 : logger_name * Z := (["dataset"], 20%Z).
Definition H20 : logger_name * Z := (["heuristics-table"], 20%Z).
Definition W20 : logger_name * Z := (["write-all-tables"], 20%Z).
Definition turns (i : nat) : list (logger_name * Z) := (W20 :: List.concat (repeat [D20; H20] i))%list.

Lemma concat_repeat_S (A : Type) (l : list A) i : List.concat (repeat l (S i)) = (List.concat (repeat l i) ++ l)%list.
Proof. induction i; cbn in *; [now rewrite app_nil_r|]. rewrite <- app_assoc. now rewrite <- IHi. Qed.

Lemma turns_ok i : Forall (fun c : logger_name * Z => snd c = 20%Z /\ List.length (fst c) = 1) (turns i).
Proof.
  constructor; [cbn; auto|]. induction i; cbn [repeat List.concat]; [constructor|].
  cbn [app]. constructor; [cbn; auto|]. constructor; [cbn; auto|]. exact IHi.
Qed.

Lemma turns_count i s : List.length (filter (fun c : logger_name * Z => name_eqb (fst c) [s]) (List.concat (repeat [D20; H20] i))) =
  i * ((if name_eqb ["dataset"] [s] then 1 else 0) + (if name_eqb ["heuristics-table"] [s] then 1 else 0)).
Proof.
  induction i; [reflexivity|]. cbn [repeat List.concat app].
  set (rest := List.concat (repeat [D20; H20] i)) in *. cbn [filter]. unfold D20, H20. cbn [fst].
  destruct (name_eqb ["dataset"] [s]), (name_eqb ["heuristics-table"] [s]); cbn [List.length];
    rewrite IHi; lia.
Qed.

Lemma turns_len i s : List.length (filter (fun c : logger_name * Z => name_eqb (fst c) [s]) (turns i)) =
  (if name_eqb ["write-all-tables"] [s] then 1 else 0) +
  i * ((if name_eqb ["dataset"] [s] then 1 else 0) + (if name_eqb ["heuristics-table"] [s] then 1 else 0)).
Proof.
  rewrite <- turns_count. unfold turns. set (rest := List.concat (repeat [D20; H20] i)).
  cbn [filter]. unfold W20. cbn [fst]. destruct (name_eqb ["write-all-tables"] [s]); reflexivity.
Qed.

Lemma turn_copies i lvl : (20 <= lvl)%Z ->
  copies (run_calls (turns i)) ["write-all-tables"] lvl = 1 /\
  copies (run_calls (turns i ++ [D20])) ["write-all-tables"] lvl = 1 /\
  copies (run_calls (turns i ++ [D20])) ["dataset"] lvl = S i /\
  copies (run_calls (turns (S i))) ["heuristics-table"] lvl = S i.
Proof.
  intro L.
  assert (F : Forall (fun c : logger_name * Z => snd c = 20%Z /\ List.length (fst c) = 1) (turns i ++ [D20])).
  { apply Forall_app. split; [apply turns_ok|]. repeat constructor. }
  repeat split.
  - rewrite copies_twenty; [|apply turns_ok|now left|exact L]. rewrite turns_len. cbn. lia.
  - rewrite copies_twenty; [|exact F|now left|exact L]. rewrite filter_app, app_length, turns_len. cbn. lia.
  - rewrite copies_twenty; [|exact F| |exact L].
    + rewrite filter_app, app_length, turns_len. cbn. lia.
    + rewrite map_app, in_app_iff. right. now left.
  - rewrite copies_twenty; [|apply turns_ok| |exact L].
    + rewrite turns_len. cbn. lia.
    + unfold turns. cbn. auto.
Qed.

Lemma turn_wat i lvl : (20 <= lvl)%Z -> copies (run_calls (turns i)) ["write-all-tables"] lvl = 1.
Proof. apply turn_copies. Qed.

Lemma log_say reg n lvl t evs : log_run reg (LSay n lvl t :: evs) =
  let '(r, o) := log_run reg evs in (r, (repeat t (copies reg n lvl) ++ o)%list).
Proof. reflexivity. Qed.
Lemma log_get reg n l evs : log_run reg (LGet n l :: evs) = log_run (get_pctsp_logger n l reg) evs.
Proof. reflexivity. Qed.

Lemma log_warning reg o evs : (copies reg ["write-all-tables"] 30 = 1) ->
  log_run reg (table_warning o ++ evs) =
  let '(r, out) := log_run reg evs in (r, (match o with Some e => [e] | None => [] end ++ out)%list).
Proof.
  intro C. destruct o; cbn [table_warning app].
  - rewrite log_say, C. cbn. now destruct (log_run reg evs).
  - now destruct (log_run reg evs).
Qed.

Lemma turns_D i : get_pctsp_logger ["dataset"] 20 (run_calls (turns i)) = run_calls (turns i ++ [D20]).
Proof. now rewrite run_snoc. Qed.
Lemma turns_H i : get_pctsp_logger ["heuristics-table"] 20 (run_calls (turns i ++ [D20])) = run_calls (turns (S i)).
Proof.
  assert (E : turns (S i) = ((turns i ++ [D20]) ++ [H20])%list).
  { unfold turns. rewrite concat_repeat_S, <- app_assoc. reflexivity. }
  rewrite E, (run_snoc (turns i ++ [D20]) H20). reflexivity.
Qed.

Lemma turn_run i t evs :
  log_run (run_calls (turns i)) (all_tables_turn t ++ evs) =
  let '(r, o) := log_run (run_calls (turns (S i))) evs in (r, (turn_lines (S i) t ++ o)%list).
Proof.
  assert (L20 : (20 <= 20)%Z) by lia. assert (L30 : (20 <= 30)%Z) by lia.
  destruct (turn_copies i 20 L20) as (A1 & A2 & A3 & A4). destruct (turn_copies i 30 L30) as (B1 & B2 & B3 & B4).
  pose proof (turn_wat (S i) 20 L20) as A5. pose proof (turn_wat (S i) 30 L30) as B5.
  unfold all_tables_turn, turn_lines, summarize_dataset_log, heuristics_table_log.
  rewrite <- !app_assoc. cbn [app].
  rewrite log_say, A1, log_get, turns_D, log_say, A3.
  destruct (tb_dataset t) as [e1|].
  - cbn [app]. rewrite (log_warning _ (Some e1)) by exact B2.
    rewrite log_say, A2. rewrite log_warning by exact B2. rewrite log_say, A2, log_get, turns_H.
    destruct (tb_heuristics t) as [e3|]; cbn [app].
    + rewrite (log_warning _ (Some e3)) by exact B5. rewrite log_say, A5, log_warning by exact B5.
      destruct (log_run (run_calls (turns (S i))) evs) as (r, o). cbn [repeat app].
      rewrite <- !app_assoc. cbn [app]. repeat (rewrite <- !app_assoc; cbn [app]). reflexivity.
    + rewrite log_say, A4. rewrite (log_warning _ None) by exact B5. rewrite log_say, A5, log_warning by exact B5.
      destruct (log_run (run_calls (turns (S i))) evs) as (r, o).
      repeat (rewrite <- !app_assoc; cbn [app repeat]). reflexivity.
  - assert (Q : forall evs, log_run (run_calls (turns i ++ [D20]))
       (((if tb_is_tspwplib t then [LSay ["dataset"] 20 "Aggregating dataset stats."] else []) ++
        [LSay ["dataset"] 20 ("Writing dataset LaTeX table to " ++ tb_tex t)%string]) ++ evs) =
       let '(r, o) := log_run (run_calls (turns i ++ [D20])) evs in
       (r, (((if tb_is_tspwplib t then repeat "Aggregating dataset stats." (S i) else []) ++
           repeat ("Writing dataset LaTeX table to " ++ tb_tex t)%string (S i)) ++ o)%list)).
    { intro evs'. destruct (tb_is_tspwplib t); cbn [app]; repeat rewrite log_say; rewrite A3;
        destruct (log_run (run_calls (turns i ++ [D20])) evs'); rewrite <- ?app_assoc; reflexivity. }
    rewrite Q. rewrite (log_warning _ None) by exact B2.
    rewrite log_say, A2. rewrite log_warning by exact B2. rewrite log_say, A2, log_get, turns_H.
    destruct (tb_heuristics t) as [e3|]; cbn [app].
    + rewrite (log_warning _ (Some e3)) by exact B5. rewrite log_say, A5, log_warning by exact B5.
      destruct (log_run (run_calls (turns (S i))) evs) as (r, o).
      repeat (rewrite <- !app_assoc; cbn [app repeat]). reflexivity.
    + rewrite log_say, A4. rewrite (log_warning _ None) by exact B5. rewrite log_say, A5, log_warning by exact B5.
      destruct (log_run (run_calls (turns (S i))) evs) as (r, o).
      repeat (rewrite <- !app_assoc; cbn [app repeat]). reflexivity.
Qed.

Lemma all_tables_lines ts : snd (log_run new_registry (all_tables_log ts)) = numbered_lines 1 ts.
Proof.
  unfold all_tables_log. rewrite log_get.
  change (get_pctsp_logger ["write-all-tables"] 20 new_registry) with (run_calls (turns 0)).
  generalize 0 as i. induction ts as [|t ts IH]; intro i; cbn [flat_map numbered_lines]; auto.
  rewrite turn_run. specialize (IH (S i)).
  destruct (log_run (run_calls (turns (S i))) (flat_map all_tables_turn ts)) as (r, o). cbn in IH |- *. now rewrite IH.
Qed.

(** ** Preprocessing *)
Lemma preprocessing_said component bicomps depth pre g root h :
  run_preprocessing component bicomps depth pre g root = Ok h ->
  exists d1 d2 d3 : Z * Z,
    preprocessing_messages component bicomps depth pre g root =
      ((if pre_components pre then [removed_components d1] else []) ++
       (if pre_leaves pre then [removed_leaves d2] else []) ++
       (if pre_one_connected pre then [removed_one_connected d3] else []))%list /\
    (fst d1 + fst d2 + fst d3 = fst (graph_size g) - fst (graph_size h))%Z /\
    (snd d1 + snd d2 + snd d3 = snd (graph_size g) - snd (graph_size h))%Z /\
    (pre_components pre = false -> d1 = (0, 0)%Z) /\ (pre_leaves pre = false -> d2 = (0, 0)%Z) /\
    (pre_one_connected pre = false -> d3 = (0, 0)%Z).
Proof.
  unfold run_preprocessing, preprocessing_messages. intro H.
  destruct (if pre_components pre then remove_components_disconnected_from_vertex component g root else Ok g) as [g1| | |] eqn:E1;
    cbn [bind] in H; try discriminate.
  destruct (if pre_leaves pre then remove_leaves depth g1 else Ok g1) as [g2| | |] eqn:E2; cbn [bind] in H; try discriminate.
  set (diff := fun a b => ((fst (graph_size a) - fst (graph_size b)), (snd (graph_size a) - snd (graph_size b)))%Z).
  set (g3 := if pre_one_connected pre then remove_one_connected_components bicomps g2 root else g2) in *.
  assert (Hh : h = g3).
  { destruct (pre_shortest_path_cutoff pre); [discriminate|]. destruct (pre_disjoint_path_cutoff pre); [discriminate|]. now inversion H. }
  subst h. exists (diff g g1), (diff g1 g2), (diff g2 g3).
  assert (Z0 : forall a, diff a a = (0, 0)%Z) by (intro a; unfold diff; f_equal; lia).
  split; [|split; [unfold diff; cbn [fst snd]; lia|split; [unfold diff; cbn [fst snd]; lia|]]].
  - unfold g3. destruct (pre_components pre), (pre_leaves pre), (pre_one_connected pre); reflexivity.
  - repeat split; intro F.
    + rewrite F in E1. inversion E1. apply Z0.
    + rewrite F in E2. inversion E2. apply Z0.
    + unfold g3. rewrite F. apply Z0.
Qed.
