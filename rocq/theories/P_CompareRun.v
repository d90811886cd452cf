(** * P_CompareRun: the experiments and run_algorithm, lemmas for C62 *)
From Coq Require Import String Lia Permutation.
From Verif Require Import Base Graph Spec Spec_Python Spec_PyWrap Spec_ILP Spec_Solve Spec_Dataset Spec_Suurballe Spec_Split Spec_RunAlg
  M_Dijkstra M_Solution M_ILP M_MaxFlow M_Solve M_Python M_PyCycle M_PyWrap M_Suurballe M_DisjointMap M_Dataset M_RunAlg M_Compare Spec_Compare.
From Verif Require Import P_Base P_Compare P_Dijkstra P_Solve P_PyWrap P_RunAlg Properties_RunAlg.
Open Scope nat_scope.

Lemma pre_one : experiment_preprocessing = [mkPre false false true false false].
Proof. reflexivity. Qed.

Lemma offered_dec d e : offered d e \/ ~ offered d e.
Proof. destruct d, e; cbn; (left; tauto) || (right; intuition discriminate). Qed.

Lemma experiment_ok F uuid d e :
  (offered d e -> exists vs, experiment_vials F uuid d e = Ok vs /\ List.length vs = vial_count d e (List.length (all_generations F)) /\
    Forall (fun v => dc_dataset (fv_data v) = d /\ data_from_files F (fv_data v) /\ fv_pre v = mkPre false false true false false) vs) /\
  (~ offered d e -> experiment_vials F uuid d e = Throw ValueErrorPy).
Proof.
  split; [|apply not_offered]. intros O. destruct (experiment_parts F uuid d e O) as (data & params & E & FD & _ & _ & _ & LN).
  eexists. split; [exact E|]. split; [rewrite vials_length, pre_one, Nat.mul_1_r; exact LN|].
  apply Forall_forall. intros v V. apply vials_in in V as (V1 & V2 & V3). rewrite Forall_forall in FD.
  destruct (FD _ V1). rewrite pre_one in V3. destruct V3 as [V3|[]]. auto.
Qed.

Lemma experiment_inv F uuid d e vs : experiment_vials F uuid d e = Ok vs -> exists data params,
  vs = product_of_vials uuid data params experiment_preprocessing /\ NoDup params /\
  (NoDup (all_generations F) -> NoDup data) /\ (e <> DisjointToursVsHeuristics -> Forall runnable params).
Proof.
  intros H. destruct (offered_dec d e) as [O|O]; [|rewrite not_offered in H by exact O; discriminate].
  destruct (experiment_parts F uuid d e O) as (data & params & E & FD & NP & ND & RU & _).
  exists data, params. split; [congruence|]. auto.
Qed.

Lemma experiment_distinct F uuid d e vs : experiment_vials F uuid d e = Ok vs -> NoDup (all_generations F) ->
  (forall i j, uuid i = uuid j -> i = j) ->
  NoDup (map (fun v => (fv_data v, fv_params v, fv_pre v)) vs) /\ NoDup (map fv_uuid vs).
Proof.
  intros H NG I. destruct (experiment_inv _ _ _ _ _ H) as (data & params & -> & NP & ND & _).
  split; [apply vials_nodup; auto; rewrite pre_one; repeat constructor; cbn; tauto|apply vials_uuid_nodup; exact I].
Qed.

Lemma experiment_runnable F uuid d e vs : experiment_vials F uuid d e = Ok vs -> e <> DisjointToursVsHeuristics ->
  Forall (fun v => runnable (fv_params v)) vs.
Proof.
  intros H NE. destruct (experiment_inv _ _ _ _ _ H) as (data & params & -> & _ & _ & RU).
  apply Forall_forall. intros v V. apply vials_in in V as (_ & V & _). specialize (RU NE). rewrite Forall_forall in RU. auto.
Qed.

Lemma filter_map_snd {A B} (f : A -> B) (P : B -> bool) l : List.length (filter P (map f l)) = List.length (filter (fun x => P (f x)) l).
Proof. induction l; cbn; [reflexivity|]. destruct (P (f a)); cbn; congruence. Qed.

Lemma relaxation_vials F uuid : exists vs, experiment_vials F uuid Tspwplib DisjointToursVsHeuristics = Ok vs /\
  List.length (filter (fun v => fp_relaxation (fv_params v)) vs) = 108 /\
  forall v, In v vs -> fp_relaxation (fv_params v) = true ->
    forall L tb so mf N depth D s dist paths W entries cbs sols cm pm, disjoint_maps N depth D s dist paths = Ok (cm, pm) ->
    run_algorithm L tb so mf N depth D s dist paths W (dc_quota (fv_data v)) (dc_root (fv_data v)) (fp_model (fv_params v))
      entries cbs sols = Throw NotImplementedErrorPy.
Proof.
  eexists. split; [reflexivity|]. split.
  - pose proof (filter_map_snd combo (fun x => fp_relaxation (snd (fst x)))) as E. cbn [combo fst snd] in E.
    rewrite <- E, vials_combo. vm_compute. reflexivity.
  - intros v V R L tb so mf N depth D s dist paths W entries cbs sols cm pm EM.
    apply vials_in in V as (_ & V & _).
    repeat (destruct V as [V|V]; [rewrite <- V in *; try discriminate R; eapply C61_not_implemented; eauto|]). destruct V.
Qed.

Lemma baseline_start L tb so W G c p n C P root quota mp cm pm t0 :
  instance W G c p n C P -> small_numbers n C P -> good_pick tb -> (forall l, Permutation (so l) l) -> fits_int quota ->
  mp_start mp = Some BfsExtensionCollapse -> tour_from G root t0 ->
  exists he, starting_edges L tb so W quota root mp cm pm = Ok he.
Proof.
  intros IN SN HT SO FQ MS T0. pose proof IN as [HE U NI AG HF SG Hn HC HP].
  destruct (bfs_start_run W G c p so root t0 U SG SO T0) as (t & ES & T).
  destruct (tour_prize_exists W G c p root t SG T) as (z & TP).
  destruct (run_until W G c p n C P HE U NI HF SG Hn HC HP SN root t quota T FQ) as (t1 & E0 & _).
  destruct (run_gain_collapse W G c p n C P HE U NI HF SG Hn HC HP SN tb HT root t z quota T TP FQ)
    as (t2 & z1 & t' & _ & _ & _ & _ & E2 & T2 & _).
  unfold starting_edges. rewrite MS. unfold run_heuristic_exact, run_heuristic, run_heuristic_tour. cbn [mp_algorithm].
  unfold heuristic_start. rewrite ES. cbn [bind]. rewrite E0. cbn [bind]. rewrite E2. cbn [bind]. eexists. reflexivity.
Qed.

Lemma baseline_solved F uuid d vs v L tb so mf W G c p n C P vt vh D N depth dist paths cm pm t0 :
  experiment_vials F uuid d Baseline = Ok vs -> In v vs ->
  let quota := dc_quota (fv_data v) in let root := dc_root (fv_data v) in let mp := fp_model (fv_params v) in
  instance W G c p n C P -> small_numbers n C P -> (2 * (Z.of_nat n * C) < int_max)%Z ->
  (Z.of_nat (List.length (ge G) + n) <= 1000000000)%Z -> (- int_max <= quota <= int_max)%Z ->
  good_pick tb -> (forall l, Permutation (so l) l) -> (forall d s t, List.length (snd (mf d s t)) = List.length (n_arcs d)) ->
  maps_call W G c vt vh D N root depth dist paths cm pm -> lab_ok L W G p quota root -> tour_from G root t0 ->
  exists he, starting_edges L tb so W quota root mp cm pm = Ok he /\
    solved L tb so mf N depth D (vh root) dist paths cm W G c p quota root mp he.
Proof.
  intros EV V quota root mp IN SN NC SIZE FQ HT SO HM MC LO T0.
  assert (EP : fv_params v = exact_params strong_max_depth strong_at_tree_top max_tailing_off lp_gap_threshold false false false BfsExtensionCollapse None 1%Z).
  { assert (EV' : exists data, vs = product_of_vials uuid data baseline_params experiment_preprocessing).
    { destruct d; inversion EV; eexists; reflexivity. }
    destruct EV' as (data & ->). apply vials_in in V as (_ & V & _). destruct V as [V|[]]. congruence. }
  pose proof (experiment_runnable _ _ _ _ _ EV) as RU. rewrite Forall_forall in RU. specialize (RU ltac:(discriminate) v V).
  destruct RU as [_ RK _ _]. fold mp in RK.
  assert (FI : fits_int quota) by (clear - FQ; unfold fits_int, int_min, int_max in *; lia).
  destruct (baseline_start L tb so W G c p n C P root quota mp cm pm t0 IN SN HT SO FI) as (he & EH); auto.
  { unfold mp. rewrite EP. reflexivity. }
  exists he. split; [exact EH|].
  pose proof SN as (C0 & P0 & _ & _ & _ & SP).
  destruct RK as [(EX & NH & _ & OG & _)|(EX & _)]; [|unfold mp in EX; rewrite EP in EX; discriminate EX].
  unfold solved. eapply C61_exact with (n := n) (C := C) (P := P); eauto.
  - clear - P0 SP. unfold int_max in *. nia.
  - intros X. unfold mp in X. rewrite EP in X. discriminate X.
  - intros X. unfold mp in X. rewrite EP in X. discriminate X.
Qed.

Lemma simple_solved F uuid d e vs v L tb so mf W G c p n C P vt vh D N depth dist paths cm pm :
  experiment_vials F uuid d e = Ok vs -> e = SimpleBranchCut \/ e = Dryrun -> In v vs -> is_exact (fp_model (fv_params v)) = true ->
  let quota := dc_quota (fv_data v) in let root := dc_root (fv_data v) in let mp := fp_model (fv_params v) in
  instance W G c p n C P -> (0 <= C)%Z -> (2 * (Z.of_nat n * C) < int_max)%Z -> (Z.of_nat n * P <= int_max)%Z ->
  (Z.of_nat (List.length (ge G) + n) <= 1000000000)%Z -> (- int_max <= quota <= int_max)%Z ->
  good_pick tb -> (forall d s t, List.length (snd (mf d s t)) = List.length (n_arcs d)) ->
  maps_call W G c vt vh D N root depth dist paths cm pm -> lab_ok L W G p quota root ->
  starting_edges L tb so W quota root mp cm pm = Ok [] /\
  solved L tb so mf N depth D (vh root) dist paths cm W G c p quota root mp [].
Proof.
  intros EV EE V EX quota root mp IN C0 NC NP SIZE FQ HT HM MC LO.
  assert (EP : exists tl a, In a [BfsExtensionCollapse; SuurballesHeuristic; SolvePctsp] /\ fv_params v = nth 0 (product_of_model_params [a] false 2 1 tl) (fv_params v)).
  { assert (EV' : exists data tl, vs = product_of_vials uuid data (product_of_model_params [BfsExtensionCollapse; SuurballesHeuristic; SolvePctsp] false 2 1 tl) experiment_preprocessing).
    { destruct EE as [-> | ->]; destruct d; inversion EV; eexists; eexists; reflexivity. }
    destruct EV' as (data & tl & ->). apply vials_in in V as (_ & V & _).
    destruct V as [V|[V|[V|[]]]]; exists tl;
      [exists BfsExtensionCollapse|exists SuurballesHeuristic|exists SolvePctsp]; (split; [cbn; tauto|symmetry; exact V]). }
  destruct EP as (tl & a & [<-|[<-|[<-|[]]]] & EP); cbn [nth product_of_model_params map] in EP; try (rewrite EP in EX; discriminate EX).
  assert (NE : e <> DisjointToursVsHeuristics) by (destruct EE; subst; discriminate).
  pose proof (experiment_runnable _ _ _ _ _ EV NE) as RU. rewrite Forall_forall in RU. specialize (RU v V).
  destruct RU as [_ RK _ _]. fold mp in RK, EX.
  assert (ST : starting_edges L tb so W quota root mp cm pm = Ok []).
  { unfold starting_edges, mp. rewrite EP. reflexivity. }
  split; [exact ST|].
  destruct RK as [(_ & NH & _ & OG & _)|(X & _)]; [|congruence].
  unfold solved. eapply C61_exact with (n := n) (C := C) (P := P); eauto.
  - intros X. unfold mp in X. rewrite EP in X. discriminate X.
  - intros X. unfold mp in X. rewrite EP in X. discriminate X.
Qed.

Lemma commands_runnable a bd cp cc1 cc2 h pdl ss gap tail tl :
  a = SolvePctsp \/ implemented a -> (forall x, h = Some x -> implemented x) ->
  fits_int bd -> fits_int tail -> fits_int pdl -> fits_int ss -> (ss < int_max)%Z ->
  runnable (tsplib_params a bd cp cc1 cc2 h pdl ss gap tail tl) /\ runnable (londonaq_params a cc1 cc2 tl).
Proof.
  intros [-> | A] H B T PD S1 S2.
  - split.
    + split; cbn; try reflexivity.
      * left. split; [reflexivity|]. split; [reflexivity|]. split; [destruct h as [[]|]; reflexivity|]. split.
        -- unfold options_given. cbn. repeat (split; [eexists; split; [reflexivity|first [assumption|small]]|]). split; discriminate.
        -- exact H.
      * intros z. destruct h as [[]|]; cbn; intros E; inversion E; subst; auto.
      * intros z. destruct h as [[]|]; cbn; intros E; inversion E; subst; auto.
    + clear. run_one.
  - destruct A as [<-|[<-|[<-|[<-|[<-|[]]]]]]; split; constructor; cbn; try reflexivity;
      try (right; split; [reflexivity|split; [reflexivity|unfold implemented; cbn; tauto]]);
      intros z E; inversion E; subst; auto.
Qed.

Lemma commands_fail L tb so mf N depth D s dist paths W quota root entries cbs sols cm pm a bd cp cc1 cc2 h pdl ss gap tail tl :
  disjoint_maps N depth D s dist paths = Ok (cm, pm) ->
  a = Extension \/ a = DisjointToursRelaxation \/ (a = SolvePctsp /\ exists x, h = Some x /\ ~ implemented x) ->
  run_algorithm L tb so mf N depth D s dist paths W quota root
    (fp_model (tsplib_params a bd cp cc1 cc2 h pdl ss gap tail tl)) entries cbs sols = Throw NotImplementedErrorPy.
Proof.
  intros EM A. unfold run_algorithm. rewrite EM. cbn [bind].
  destruct A as [-> | [-> | (-> & x & -> & NI)]]; try reflexivity.
  destruct x; try (exfalso; apply NI; cbn; tauto); reflexivity.
Qed.
