(** * P_Csv: proofs about the tables of results *)
From Coq Require Import String QArith.
From Verif Require Import Base P_Base M_Python M_PyWrap M_RunAlg M_Compare M_Stats M_Csv Spec_Csv.
Open Scope nat_scope.
Open Scope string_scope.

Lemma flat_dict : forall v, flat_dict_from_vial v = combine vial_columns (vial_cells v).
Proof. intros v. reflexivity. Qed.

Lemma flat_names : forall v, map fst (flat_dict_from_vial v) = vial_columns.
Proof. intros v. reflexivity. Qed.

Definition plain_columns : list string := ["vial_uuid"; "objective"; "prize"; "edge_list"; "start_time"; "end_time"].

Lemma flat_map_map_out : forall A B C (f : A -> list B) (g : B -> C) l, flat_map (fun x => map g (f x)) l = map g (flat_map f l).
Proof. induction l as [| x l IH]; simpl; auto. rewrite map_app, IH. reflexivity. Qed.

(** The pairs of a vial and a result that the join puts together. *)
Definition joined (vials : list full_vial) (results : list stored_result) : list (full_vial * stored_result) :=
  flat_map (fun v => map (pair v) (filter (fun r => Nat.eqb (fv_uuid v) (st_uuid r)) results)) vials.

Lemma merge_results : forall vials results, vials <> [] -> results <> [] ->
  merge (dataframe (map flat_dict_from_vial vials)) (dataframe (map result_dict results)) "uuid" "vial_uuid" =
  Ok (mkFrame (vial_columns ++ plain_columns)
    (map (fun vr => (flat_dict_from_vial (fst vr) ++ result_dict (snd vr))%list) (joined vials results))).
Proof.
  intros vials results Nv Nr.
  assert (C1 : f_cols (dataframe (map flat_dict_from_vial vials)) = vial_columns) by (destruct vials; [congruence | reflexivity]).
  assert (C2 : f_cols (dataframe (map result_dict results)) = plain_columns) by (destruct results; [congruence | reflexivity]).
  unfold merge. rewrite C1, C2. cbv beta iota zeta.
  change (andb (has_col vial_columns "uuid") (has_col plain_columns "vial_uuid")) with true. cbv iota.
  apply (f_equal (@Ok _)). apply (f_equal2 mkFrame); [ reflexivity |].
  simpl f_rows. unfold joined.
  rewrite <- flat_map_map_out. rewrite flat_map_concat_map, map_map, <- flat_map_concat_map.
  apply flat_map_ext. intros v.
  rewrite map_map. clear.
  induction results as [| r rs IH]; [ reflexivity |].
  cbn [map filter].
  change (same_key (rget (flat_dict_from_vial v) "uuid") (rget (result_dict r) "vial_uuid")) with (Nat.eqb (fv_uuid v) (st_uuid r)).
  destruct (Nat.eqb (fv_uuid v) (st_uuid r)); cbn [map filter]; [| exact IH].
  apply (f_equal2 cons); [ reflexivity | exact IH ].
Qed.

Lemma assign_map : forall A cols name from f (g g' : A -> row) l,
  forallb (has_col cols) from = true ->
  (forall a, In a l -> (do x <- f (g a); Ok (rset (g a) name x)) = Ok (g' a)) ->
  assign (mkFrame cols (map g l)) name from f =
  Ok (mkFrame (if has_col cols name then cols else (cols ++ [name])%list) (map g' l)).
Proof.
  intros A cols name from f g g' l Hf H. unfold assign. cbn [f_cols f_rows]. rewrite Hf.
  assert (E : mapM (fun r => do x <- f r; Ok (rset r name x)) (map g l) = Ok (map g' l)).
  { induction l as [| a l IH]; [ reflexivity |]. cbn [map mapM]. rewrite (H a (or_introl eq_refl)). cbn [bind].
    rewrite IH by (intros b Hb; apply H; right; exact Hb). reflexivity. }
  rewrite E. reflexivity.
Qed.

Definition row1 (vr : full_vial * stored_result) : row :=
  (flat_dict_from_vial (fst vr) ++ result_dict (snd vr) ++ [("duration", CTime (st_end (snd vr) - st_start (snd vr)))])%list.
Definition row2 (vr : full_vial * stored_result) : row :=
  (row1 vr ++ [("feasible", CBool (Z.leb (dc_quota (fv_data (fst vr))) (r_prize (st_result (snd vr)))))])%list.
Definition row3 (vr : full_vial * stored_result) : row :=
  let '(v, r) := vr in
  combine (vial_columns ++ plain_columns ++ ["duration"; "feasible"])
    (vial_cells v ++ [CUuid (st_uuid r);
      (if Z.leb (dc_quota (fv_data v)) (r_prize (st_result r)) then CInt (r_objective (st_result r)) else CNaN);
      CInt (r_prize (st_result r)); CEdges (r_edges (st_result r)); CTime (st_start r); CTime (st_end r);
      CTime (st_end r - st_start r); CBool (Z.leb (dc_quota (fv_data v)) (r_prize (st_result r)))])%list.

Lemma summary_df : forall vials results, vials <> [] -> results <> [] ->
  experiment_summary_df vials results =
  Ok (mkFrame (vial_columns ++ result_columns)
    (map (fun '(v, r) => combine (vial_columns ++ result_columns)
      (vial_cells v ++ CUuid (st_uuid r) :: tl (result_cells v r))%list) (joined vials results))).
Proof.
  intros vials results Nv Nr. unfold experiment_summary_df. rewrite merge_results by assumption. cbn [bind].
  rewrite (assign_map _ _ _ _ _ _ row1); [ cbn [bind] | reflexivity | intros [v r] _; reflexivity ].
  rewrite (assign_map _ _ _ _ _ _ row2); [ cbn [bind] | reflexivity | intros [v r] _; reflexivity ].
  rewrite (assign_map _ _ _ _ _ _ row3); [ cbn [bind] | reflexivity | intros [v r] _; reflexivity ].
  rewrite (assign_map _ _ _ _ _ _ (fun '(v, r) => combine (vial_columns ++ result_columns)
      (vial_cells v ++ CUuid (st_uuid r) :: tl (result_cells v r))%list)); [ | reflexivity | intros [v r] _; reflexivity ].
  reflexivity.
Qed.

(** *** Reading the results *)

Lemma read_results_ok : forall F vials, (forall v, In v vials -> ef_result F (fv_uuid v) <> RBadFields) ->
  read_results F vials = Ok (map snd (with_result F vials)).
Proof.
  intros F vials. unfold read_results.
  assert (G : forall acc, (forall v, In v vials -> ef_result F (fv_uuid v) <> RBadFields) ->
    foldM (fun results v => match ef_result F (fv_uuid v) with
      | RFile r => Ok (results ++ [r])%list | RNoFile | RNotJson => Ok results | RBadFields => Throw ValidationErrorPy end)
      vials acc = Ok (acc ++ map snd (with_result F vials))%list).
  { induction vials as [| v vs IH]; intros acc H; cbn [foldM with_result flat_map map].
    - rewrite app_nil_r. reflexivity.
    - pose proof (H v (or_introl eq_refl)) as Hv.
      assert (Hs : forall w, In w vs -> ef_result F (fv_uuid w) <> RBadFields) by (intros w Hw; apply H; right; exact Hw).
      destruct (ef_result F (fv_uuid v)) as [| | | r]; try congruence; cbn [bind app map snd].
      + apply IH; exact Hs.
      + apply IH; exact Hs.
      + rewrite IH by exact Hs. rewrite <- app_assoc. reflexivity. }
  intros H. apply (G [] H).
Qed.

Lemma with_result_in : forall F vials v r, In (v, r) (with_result F vials) <-> In v vials /\ ef_result F (fv_uuid v) = RFile r.
Proof.
  intros F vials v r. unfold with_result. rewrite in_flat_map. split.
  - intros (w & Hw & H). destruct (ef_result F (fv_uuid w)) eqn:E; simpl in H; try tauto.
    destruct H as [H | []]. injection H as -> ->. auto.
  - intros (Hv & E). exists v. rewrite E. simpl. auto.
Qed.

(** A result is found only by its own vial. *)
Lemma filter_own : forall F vials v, proper_files F vials -> In v vials ->
  filter (fun r => Nat.eqb (fv_uuid v) (st_uuid r)) (map snd (with_result F vials)) =
  match ef_result F (fv_uuid v) with RFile r => [r] | _ => [] end.
Proof.
  intros F vials v P Hv.
  pose proof (pf_own _ _ P) as Own. pose proof (pf_distinct _ _ P) as ND. clear P.
  assert (None : forall vs, incl vs vials -> ~ In (fv_uuid v) (map fv_uuid vs) ->
    filter (fun r => Nat.eqb (fv_uuid v) (st_uuid r)) (map snd (with_result F vs)) = []).
  { induction vs as [| w vs IH]; intros Hi Hn; [ reflexivity |].
    cbn [with_result flat_map]. rewrite map_app, filter_app. fold (with_result F vs).
    rewrite IH; [| intros x Hx; apply Hi; right; exact Hx | intros Hx; apply Hn; right; exact Hx ].
    rewrite app_nil_r. destruct (ef_result F (fv_uuid w)) eqn:E; try reflexivity.
    cbn [map snd filter]. rewrite (Own w _ (Hi w (or_introl eq_refl)) E).
    destruct (Nat.eqb_spec (fv_uuid v) (fv_uuid w)) as [Q |]; [| reflexivity ].
    exfalso. apply Hn. left. auto. }
  assert (G : forall vs, incl vs vials -> NoDup (map fv_uuid vs) -> In v vs ->
    filter (fun r => Nat.eqb (fv_uuid v) (st_uuid r)) (map snd (with_result F vs)) =
    match ef_result F (fv_uuid v) with RFile r => [r] | _ => [] end).
  { induction vs as [| w vs IH]; intros Hi Hd Hin; [ destruct Hin |].
    cbn [with_result flat_map]. rewrite map_app, filter_app. fold (with_result F vs).
    cbn [map] in Hd. inversion Hd as [| ? ? Hw Hd']; subst.
    assert (Hi' : incl vs vials) by (intros x Hx; apply Hi; right; exact Hx).
    destruct Hin as [-> | Hin].
    - rewrite (None vs Hi' Hw). rewrite app_nil_r.
      destruct (ef_result F (fv_uuid v)) eqn:E; try reflexivity.
      cbn [map snd filter]. rewrite (Own v _ Hv E). rewrite Nat.eqb_refl. reflexivity.
    - rewrite (IH Hi' Hd' Hin).
      destruct (ef_result F (fv_uuid w)) eqn:E; try reflexivity.
      cbn [map snd filter]. rewrite (Own w _ (Hi w (or_introl eq_refl)) E).
      destruct (Nat.eqb_spec (fv_uuid v) (fv_uuid w)) as [Q |]; [| reflexivity ].
      exfalso. apply Hw. rewrite <- Q. apply in_map. exact Hin. }
  apply G; auto. apply incl_refl.
Qed.

Lemma joined_own : forall F vials, proper_files F vials ->
  joined vials (map snd (with_result F vials)) = with_result F vials.
Proof.
  intros F vials P. unfold joined.
  assert (G : forall vs, incl vs vials ->
    flat_map (fun v => map (pair v) (filter (fun r => Nat.eqb (fv_uuid v) (st_uuid r)) (map snd (with_result F vials)))) vs =
    with_result F vs).
  { induction vs as [| v vs IH]; intros Hi; [ reflexivity |]. cbn [flat_map with_result].
    rewrite (filter_own F vials v P (Hi v (or_introl eq_refl))).
    rewrite IH by (intros x Hx; apply Hi; right; exact Hx).
    destruct (ef_result F (fv_uuid v)); reflexivity. }
  apply G. apply incl_refl.
Qed.

Lemma heuristics_ok : forall F vials, proper_files F vials -> with_result F vials <> [] ->
  heuristics_csv F = Ok (heuristics_table F vials).
Proof.
  intros F vials P H. unfold heuristics_csv, read_experiment. rewrite (pf_vials _ _ P). cbn [bind].
  rewrite read_results_ok by apply (pf_results _ _ P). cbn [bind].
  rewrite summary_df; [| intros ->; apply H; reflexivity | intros E; apply H; destruct (with_result F vials); [ reflexivity | discriminate E ] ].
  rewrite joined_own by exact P. unfold heuristics_table.
  apply (f_equal (@Ok _)). apply (f_equal2 mkFrame); [ reflexivity |].
  apply map_ext_in. intros [v r] Hin. apply with_result_in in Hin. destruct Hin as (Hv & E).
  rewrite (pf_own _ _ P v r Hv E). reflexivity.
Qed.

(** *** The statistics *)

Definition stats_of (F : experiment_files) (ids : list nat) : list (nat * @summary Q) :=
  flat_map (fun u => match ef_stats F u with SFile s => [(u, s)] | _ => [] end) ids.

Lemma summary_stats_ok : forall F ids,
  (forall u, In u ids -> ef_stats F u <> SNotMapping /\ ef_stats F u <> SBadFields) ->
  summary_stats_df F ids = Ok (dataframe (map (fun us => stats_dict (fst us) (snd us)) (stats_of F ids))).
Proof.
  intros F ids H. unfold summary_stats_df.
  match goal with |- bind (foldM ?f _ _) _ = _ => set (step := f) end.
  assert (G : forall acc, foldM step ids acc = Ok (acc ++ map (fun us => stats_dict (fst us) (snd us)) (stats_of F ids))%list).
  { induction ids as [| u us IH]; intros acc; cbn [foldM stats_of flat_map map].
    - rewrite app_nil_r. reflexivity.
    - pose proof (H u (or_introl eq_refl)) as (H1 & H2).
      assert (Hs : forall w, In w us -> ef_stats F w <> SNotMapping /\ ef_stats F w <> SBadFields) by (intros w Hw; apply H; right; exact Hw).
      unfold step at 1. destruct (ef_stats F u) as [| | | | s]; try congruence; cbn [stats_from_yaml bind app map].
      + apply IH; exact Hs.
      + apply IH; exact Hs.
      + rewrite IH by exact Hs. rewrite <- app_assoc. reflexivity. }
  rewrite G. reflexivity.
Qed.

Definition with_id (vrx : full_vial * stored_result) (us : nat * @summary Q) : full_vial * stored_result * @summary Q :=
  (fst vrx, snd vrx, snd us).

Lemma merge_stats : forall (g : list (full_vial * stored_result)) (st : list (nat * @summary Q)), st <> [] ->
  merge (mkFrame (vial_columns ++ result_columns)
      (map (fun '(v, r) => combine (vial_columns ++ result_columns) (vial_cells v ++ result_cells v r)%list) g))
    (dataframe (map (fun us => stats_dict (fst us) (snd us)) st)) "vial_uuid" "vial_uuid" =
  Ok (mkFrame (vial_columns ++ result_columns ++ stats_columns)
    (map (fun '(v, r, s) => combine (vial_columns ++ result_columns ++ stats_columns)
        (vial_cells v ++ result_cells v r ++ stats_cells s)%list)
      (flat_map (fun vr => map (with_id vr) (filter (fun us => Nat.eqb (fv_uuid (fst vr)) (fst us)) st)) g))).
Proof.
  intros g st Ns.
  assert (C2 : f_cols (dataframe (map (fun us => stats_dict (fst us) (snd us)) st)) = (stats_columns ++ ["vial_uuid"])%list)
    by (destruct st; [congruence | reflexivity]).
  unfold merge. rewrite C2. cbv beta iota zeta. cbn [f_cols f_rows].
  change (andb (has_col (vial_columns ++ result_columns) "vial_uuid") (has_col (stats_columns ++ ["vial_uuid"]) "vial_uuid")) with true. cbv iota.
  apply (f_equal (@Ok _)). apply (f_equal2 mkFrame); [ reflexivity |].
  rewrite <- flat_map_map_out. rewrite flat_map_concat_map, map_map, <- flat_map_concat_map.
  apply flat_map_ext. intros [v r].
  rewrite map_map. cbn [dataframe f_rows]. clear.
  induction st as [| [u s] st IH]; [ reflexivity |].
  cbn [map filter].
  change (same_key (rget (combine (vial_columns ++ result_columns) (vial_cells v ++ result_cells v r)%list) "vial_uuid")
    (rget (stats_dict (fst (u, s)) (snd (u, s))) "vial_uuid")) with (Nat.eqb (fv_uuid v) u).
  change (fv_uuid (fst (v, r)) =? fst (u, s))%nat with (Nat.eqb (fv_uuid v) u).
  destruct (Nat.eqb (fv_uuid v) u); cbn [map filter]; [| exact IH].
  apply (f_equal2 cons); [ reflexivity | exact IH ].
Qed.

Lemma stats_own : forall F ids u, NoDup ids -> In u ids ->
  filter (fun us : nat * @summary Q => Nat.eqb u (fst us)) (stats_of F ids) =
  match ef_stats F u with SFile s => [(u, s)] | _ => [] end.
Proof.
  intros F ids u. 
  assert (None : forall us, ~ In u us -> filter (fun us : nat * @summary Q => Nat.eqb u (fst us)) (stats_of F us) = []).
  { induction us as [| w us IH]; intros Hn; [ reflexivity |].
    cbn [stats_of flat_map]. rewrite filter_app. fold (stats_of F us).
    rewrite IH by (intros Hx; apply Hn; right; exact Hx). rewrite app_nil_r.
    destruct (ef_stats F w); try reflexivity. cbn [filter fst].
    destruct (Nat.eqb_spec u w) as [Q |]; [| reflexivity ]. exfalso. apply Hn. left. auto. }
  induction ids as [| w us IH]; intros Hd Hin; [ destruct Hin |].
  cbn [stats_of flat_map]. rewrite filter_app. fold (stats_of F us).
  inversion Hd as [| ? ? Hw Hd']; subst.
  destruct Hin as [-> | Hin].
  - rewrite (None us Hw). rewrite app_nil_r. destruct (ef_stats F u); try reflexivity.
    cbn [filter fst]. rewrite Nat.eqb_refl. reflexivity.
  - rewrite (IH Hd' Hin). destruct (ef_stats F w); try reflexivity. cbn [filter fst].
    destruct (Nat.eqb_spec u w) as [Q |]; [| reflexivity ]. exfalso. apply Hw. congruence.
Qed.

Lemma branch_cut_ok : forall F vials, proper_files F vials -> with_result F vials <> [] ->
  (exists v s, In v vials /\ ef_stats F (fv_uuid v) = SFile s) ->
  branch_cut_csv F = Ok (branch_cut_table F vials).
Proof.
  intros F vials P H (v0 & s0 & Hv0 & Es0).
  pose proof (heuristics_ok F vials P H) as E. unfold heuristics_csv in E. unfold branch_cut_csv.
  destruct (read_experiment F) as [vs | | |] eqn:R; cbn [bind] in E |- *; try discriminate E.
  assert (vs = vials) as -> by (unfold read_experiment in R; rewrite (pf_vials _ _ P) in R; congruence).
  destruct (read_results F vials) as [rs | | |]; cbn [bind] in E |- *; try discriminate E.
  rewrite E. cbn [bind].
  rewrite summary_stats_ok; [ cbn [bind] |].
  2:{ intros u Hu. apply in_map_iff in Hu. destruct Hu as (v & <- & Hv). apply (pf_stats _ _ P v Hv). }
  unfold heuristics_table. rewrite merge_stats.
  - unfold branch_cut_table. apply (f_equal (@Ok _)). apply (f_equal2 mkFrame); [ reflexivity |].
    f_equal. unfold with_stats.
    assert (G : forall g, (forall v r, In (v, r) g -> In v vials) ->
      flat_map (fun vr => map (with_id vr) (filter (fun us => Nat.eqb (fv_uuid (fst vr)) (fst us)) (stats_of F (map fv_uuid vials)))) g =
      flat_map (fun '(v, r) => match ef_stats F (fv_uuid v) with SFile s => [(v, r, s)] | _ => [] end) g).
    { induction g as [| [v r] g IH]; intros Hg; [ reflexivity |]. cbn [flat_map fst].
      rewrite IH by (intros w x Hw; apply (Hg w x); right; exact Hw).
      rewrite stats_own; [| apply (pf_distinct _ _ P) | apply in_map; apply (Hg v r); left; reflexivity ].
      destruct (ef_stats F (fv_uuid v)); reflexivity. }
    apply G. intros v r Hin. apply with_result_in in Hin. tauto.
  - assert (Hin : In (fv_uuid v0, s0) (stats_of F (map fv_uuid vials))).
    { unfold stats_of. apply in_flat_map. exists (fv_uuid v0). rewrite Es0. split; [ apply in_map; exact Hv0 | left; reflexivity ]. }
    intros E0. rewrite E0 in Hin. destruct Hin.
Qed.

(** *** Without results *)

Lemma no_results : forall F vials, ef_vials F = Some vials ->
  (forall v, In v vials -> ef_result F (fv_uuid v) = RNoFile \/ ef_result F (fv_uuid v) = RNotJson) ->
  heuristics_csv F = Throw KeyErrorPy /\ branch_cut_csv F = Throw KeyErrorPy.
Proof.
  intros F vials V H. unfold heuristics_csv, branch_cut_csv, read_experiment. rewrite V. cbn [bind].
  rewrite read_results_ok by (intros v Hv; destruct (H v Hv) as [-> | ->]; discriminate). cbn [bind].
  assert (E : with_result F vials = []).
  { clear V. unfold with_result. induction vials as [| v vs IH]; [ reflexivity |]. cbn [flat_map].
    rewrite IH by (intros w Hw; apply H; right; exact Hw).
    destruct (H v (or_introl eq_refl)) as [-> | ->]; reflexivity. }
  rewrite E. unfold experiment_summary_df, merge. cbn [map dataframe f_cols has_col existsb].
  rewrite andb_false_r. auto.
Qed.

Lemma no_stats : forall F vials, proper_files F vials -> with_result F vials <> [] ->
  (forall v, In v vials -> ef_stats F (fv_uuid v) = SNoFile \/ ef_stats F (fv_uuid v) = SNotYaml) ->
  branch_cut_csv F = Throw KeyErrorPy.
Proof.
  intros F vials P H S.
  pose proof (heuristics_ok F vials P H) as E. unfold heuristics_csv in E. unfold branch_cut_csv.
  destruct (read_experiment F) as [vs | | |] eqn:R; cbn [bind] in E |- *; try discriminate E.
  assert (vs = vials) as -> by (unfold read_experiment in R; rewrite (pf_vials _ _ P) in R; congruence).
  destruct (read_results F vials) as [rs | | |]; cbn [bind] in E |- *; try discriminate E.
  rewrite E. cbn [bind].
  rewrite summary_stats_ok; [ cbn [bind] |].
  2:{ intros u Hu. apply in_map_iff in Hu. destruct Hu as (v & <- & Hv). apply (pf_stats _ _ P v Hv). }
  assert (E0 : stats_of F (map fv_uuid vials) = []).
  { clear - S. induction vials as [| v vs IH]; [ reflexivity |]. unfold stats_of in *. cbn [map flat_map].
    rewrite IH by (intros w Hw; apply S; right; exact Hw).
    destruct (S v (or_introl eq_refl)) as [-> | ->]; reflexivity. }
  rewrite E0. unfold merge. cbn [map dataframe f_cols has_col existsb]. rewrite andb_false_r. reflexivity.
Qed.

(** *** Files with other contents *)

Lemma bad_result : forall F vials v, ef_vials F = Some vials -> In v vials -> ef_result F (fv_uuid v) = RBadFields ->
  heuristics_csv F = Throw ValidationErrorPy /\ branch_cut_csv F = Throw ValidationErrorPy.
Proof.
  intros F vials v V Hv E. unfold heuristics_csv, branch_cut_csv, read_experiment. rewrite V. cbn [bind].
  assert (G : forall acc, foldM (fun results v => match ef_result F (fv_uuid v) with
      | RFile r => Ok (results ++ [r])%list | RNoFile | RNotJson => Ok results | RBadFields => Throw ValidationErrorPy end)
      vials acc = Throw ValidationErrorPy).
  { clear V. induction vials as [| w vs IH]; intros acc; [ destruct Hv |]. cbn [foldM].
    destruct Hv as [-> | Hv]; [ rewrite E; reflexivity |].
    destruct (ef_result F (fv_uuid w)); cbn [bind]; auto. }
  unfold read_results. rewrite G. auto.
Qed.

Lemma bad_stats : forall F pre u post x, Forall (fun w => passed_over_or_read (ef_stats F w)) pre ->
  stats_from_yaml (ef_stats F u) = Throw x ->
  x = TypeErrorPy \/ x = ValidationErrorPy ->
  summary_stats_df F (pre ++ u :: post)%list = Throw x.
Proof.
  intros F pre u post x H E Hx. unfold summary_stats_df.
  match goal with |- bind (foldM ?f _ _) _ = _ => set (step := f) end.
  assert (G : forall acc, foldM step (pre ++ u :: post)%list acc = Throw x).
  { induction H as [| w us Hw _ IH]; intros acc; cbn [app foldM].
    - unfold step at 1. rewrite E. destruct Hx as [-> | ->]; reflexivity.
    - unfold step at 1. destruct Hw as [W | [W | [s W]]]; rewrite W; cbn [stats_from_yaml bind]; apply IH. }
  rewrite G. reflexivity.
Qed.

Lemma bad_stats_csv : forall F vials pre v post,
  proper_files (mkExperimentFiles (ef_vials F) (ef_result F) (fun _ => SNoFile)) vials ->
  with_result F vials <> [] -> vials = (pre ++ v :: post)%list ->
  Forall (fun w => passed_over_or_read (ef_stats F (fv_uuid w))) pre ->
  (ef_stats F (fv_uuid v) = SNotMapping -> branch_cut_csv F = Throw TypeErrorPy) /\
  (ef_stats F (fv_uuid v) = SBadFields -> branch_cut_csv F = Throw ValidationErrorPy).
Proof.
  intros F vials pre v post P H EV B.
  enough (G : forall x, stats_from_yaml (ef_stats F (fv_uuid v)) = Throw x -> x = TypeErrorPy \/ x = ValidationErrorPy ->
    branch_cut_csv F = Throw x) by (split; intros E; apply G; auto; rewrite E; reflexivity).
  intros x E Hx.
  pose proof (heuristics_ok _ vials P H) as E0. unfold heuristics_csv in E0. unfold branch_cut_csv.
  change (read_experiment (mkExperimentFiles (ef_vials F) (ef_result F) (fun _ => SNoFile))) with (read_experiment F) in E0.
  destruct (read_experiment F) as [vs | | |] eqn:R; cbn [bind] in E0 |- *; try discriminate E0.
  assert (vs = vials) as ->.
  { unfold read_experiment in R. pose proof (pf_vials _ _ P) as V. cbn [ef_vials] in V. rewrite V in R. congruence. }
  change (read_results (mkExperimentFiles (ef_vials F) (ef_result F) (fun _ => SNoFile)) vials) with (read_results F vials) in E0.
  destruct (read_results F vials) as [rs | | |]; cbn [bind] in E0 |- *; try discriminate E0.
  rewrite E0. cbn [bind]. rewrite EV, map_app. cbn [map].
  rewrite (bad_stats F _ (fv_uuid v) _ x); auto.
  rewrite Forall_map. exact B.
Qed.

(** *** The contents of a row *)

Lemma heuristics_row : forall v r,
  let row := combine (vial_columns ++ result_columns) (vial_cells v ++ result_cells v r)%list in
  rget row "uuid" = Some (CUuid (fv_uuid v)) /\ rget row "vial_uuid" = Some (CUuid (fv_uuid v)) /\
  rget row "quota" = Some (CInt (dc_quota (fv_data v))) /\ rget row "prize" = Some (CInt (r_prize (st_result r))) /\
  rget row "feasible" = Some (CBool (Z.leb (dc_quota (fv_data v)) (r_prize (st_result r)))) /\
  rget row "objective" = Some (if Z.leb (dc_quota (fv_data v)) (r_prize (st_result r)) then CInt (r_objective (st_result r)) else CNaN) /\
  rget row "overshoot" = Some (if Z.leb (dc_quota (fv_data v)) (r_prize (st_result r))
    then CInt (r_prize (st_result r) - dc_quota (fv_data v)) else CNaN).
Proof. intros v r. repeat split; reflexivity. Qed.

Lemma feasible_rows : forall F vials f row, proper_files F vials -> heuristics_csv F = Ok f -> In row (f_rows f) ->
  exists v r, In v vials /\ ef_result F (fv_uuid v) = RFile r /\ rget row "uuid" = Some (CUuid (fv_uuid v)) /\
    rget row "prize" = Some (CInt (r_prize (st_result r))) /\
    ((dc_quota (fv_data v) <= r_prize (st_result r))%Z ->
      rget row "feasible" = Some (CBool true) /\ rget row "objective" = Some (CInt (r_objective (st_result r))) /\
      rget row "overshoot" = Some (CInt (r_prize (st_result r) - dc_quota (fv_data v)))) /\
    ((r_prize (st_result r) < dc_quota (fv_data v))%Z ->
      rget row "feasible" = Some (CBool false) /\ rget row "objective" = Some CNaN /\ rget row "overshoot" = Some CNaN).
Proof.
  intros F vials f row P E Hin.
  assert (N : with_result F vials <> []).
  { intros E0. unfold heuristics_csv, read_experiment in E. rewrite (pf_vials _ _ P) in E. cbn [bind] in E.
    rewrite read_results_ok in E by apply (pf_results _ _ P). rewrite E0 in E. cbn [bind map] in E.
    unfold experiment_summary_df, merge in E. cbn [map dataframe f_cols has_col existsb] in E.
    rewrite andb_false_r in E. discriminate E. }
  rewrite (heuristics_ok F vials P N) in E. injection E as <-. cbn [heuristics_table f_rows] in Hin.
  apply in_map_iff in Hin. destruct Hin as ([v r] & <- & Hin). apply with_result_in in Hin. destruct Hin as (Hv & Er).
  destruct (heuristics_row v r) as (H1 & _ & _ & H2 & H3 & H4 & H5).
  exists v, r. repeat (split; [ assumption |]). split; intros L.
  - apply Z.leb_le in L. rewrite L in H3, H4, H5. auto.
  - apply Z.leb_gt in L. rewrite L in H3, H4, H5. auto.
Qed.

(** *** All tables *)

Lemma csv_all_ok : forall lab calls, Forall (call_ready lab) calls ->
  csv_all lab calls = (flat_map (call_tables lab) calls, Ok tt).
Proof.
  intros lab. induction calls as [| [[d e] b] calls IH]; intros H; [ reflexivity |].
  inversion H as [| ? ? H0 H1]; subst. cbn [csv_all flat_map call_tables]. destruct H0 as [E | (vials & P & N & S)].
  - rewrite E. unfold branch_cut_csv, heuristics_csv, read_experiment. rewrite E. cbn [bind app].
    destruct b; apply IH; exact H1.
  - rewrite (pf_vials _ _ P). rewrite IH by exact H1. destruct b.
    + rewrite (branch_cut_ok _ vials P N (S eq_refl)). reflexivity.
    + rewrite (heuristics_ok _ vials P N). reflexivity.
Qed.

Lemma csv_all_tables : forall lab, Forall (call_ready lab) tables_in_order ->
  csv_all lab csv_calls = (flat_map (call_tables lab) tables_in_order, Ok tt).
Proof. exact (fun lab => csv_all_ok lab tables_in_order). Qed.

Lemma flat_dict_all : forall v,
  flat_dict_from_vial v = combine vial_columns (vial_cells v) /\ NoDup vial_columns /\
  List.length vial_columns = List.length (vial_cells v).
Proof.
  intros v. split; [ apply flat_dict |]. split; [| reflexivity ].
  unfold vial_columns. repeat constructor; cbn; intuition discriminate.
Qed.
