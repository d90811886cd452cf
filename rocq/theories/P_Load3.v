(** * P_Load3: the table of a data set describes the graphs of the vials; the commands; the loop of M_Lab *)
From Coq Require Import String QArith.
From Verif Require Import Base M_Python M_PyWrap M_RunAlg M_Compare M_Dataset M_Lab M_Csv M_Summary M_Load Spec_Python Spec_Dataset Spec_Summary Spec_Compare
  Spec_Load P_Base P_PyWrap P_Compare P_Summary P_Load P_Load2.
Open Scope nat_scope.
Open Scope string_scope.

Lemma Forall2_key {A B} (P : A -> B -> Prop) l l' a : Forall2 P l l' -> In a l -> exists b, In b l' /\ P a b.
Proof. intro F. induction F as [|x y l l' H F IH]; [intros []|]. intros [<-|I]; [exists y; cbn; auto|]. destruct (IH I) as (b & J & Q). exists b. cbn. auto. Qed.

(** ** The same graph *)

Lemma dataset_oplib_same W gen name g ds sc : good_files W -> w_oplib W (Some gen) name = Ok (g, ds, sc) ->
  exists G, dataset_oplib W gen name = Ok (G, ds) /\ with_prizes (Some sc) g = Ok G.
Proof.
  intros (_ & GO & _) E. destruct (GO _ _ _ _ _ E) as (A & B). destruct (scores_drawn g sc A B) as (G & g1 & ER & (EA & EP) & EW & EG & _ & _).
  exists G. split; [|exact EW]. unfold dataset_oplib. rewrite E. cbn [bind]. rewrite set_prizes_is, rename_is. cbn [ag_adj]. rewrite rename_prz.
  rewrite <- rename_is, ER. cbn [bind]. rewrite EG, set_prizes_is. unfold plain. cbn [ag_adj ag_cost ag_prize]. rewrite EA, EP. reflexivity.
Qed.

Lemma dataset_londonaq_same W name G ds : dataset_londonaq W name = Ok (G, ds) ->
  exists g, w_londonaq W name = Ok (g, ds) /\ forall pr, with_prizes pr g = Ok G.
Proof.
  unfold dataset_londonaq. intro E. apply bind_ok in E as ((g & ds') & EL & E). apply bind_ok in E as (g1 & ER & E).
  exists g. destruct (rename_node_attributes g1) as (g2 & [|]) eqn:EN; [|discriminate]. injection E as <- <-. split; [exact EL|].
  intro pr. unfold with_prizes. rewrite ER. cbn [bind]. rewrite EN. reflexivity.
Qed.

Lemma kept_costs W n c G : ~ In c ["UNIFORM_RANDOM"; "MST"; "SEMI_MST"] -> with_costs W n c G = Ok G.
Proof.
  intro N. unfold with_costs. cbn in N.
  destruct (String.eqb_spec c "UNIFORM_RANDOM") as [->|_]; [tauto|]. destruct (String.eqb_spec c "MST") as [->|_]; [tauto|].
  destruct (String.eqb_spec c "SEMI_MST") as [->|_]; [tauto|reflexivity].
Qed.

Theorem table_graph W R n pr d generations stats rows : good_files W -> tabulated generations d -> root_is_depot W d -> root_there R d ->
  stats_of_dataset (dataset_sources W generations stats) (dc_dataset d) = Ok rows ->
  exists G pr' x key r, load_vial W R n pr d = Ok (G, pr') /\ stats G (dc_root d) = Ok x /\ row_key d key /\ In r rows /\ csv_row key x r.
Proof.
  intros GF T RD RT E. unfold tabulated in T. unfold root_is_depot in RD. unfold root_there in RT. unfold row_key. unfold load_vial, read_problem.
  destruct (dc_dataset d).
  - destruct T as (IN & K & C). apply londonaq_csv in E. destruct (Forall2_key _ _ _ _ E IN) as (r & I & x & (g & root & ds & M & S) & CR).
    cbn [src_londonaq src_stats dataset_sources] in M, S. destruct (dataset_londonaq_same _ _ _ _ M) as (g0 & EL & EW).
    destruct (RD _ _ EL) as (ds' & ED). injection ED as -> _.
    exists g, pr, x, [("graph_name", CStr (dc_graph_name d))], r. rewrite RT, EL. cbn [bind]. rewrite EW. cbn [bind].
    replace (or_none (dc_kappa d)) with (@None Z) by (destruct K as [->| ->]; reflexivity). cbn [bind].
    rewrite (kept_costs _ _ _ _ C). cbn [bind]. auto.
  - destruct T as (IN & IC & k & gen & EK & IK & EG & IG). apply tspwplib_csv in E. cbn [src_generations dataset_sources] in E.
    assert (IP : In (dc_graph_name d, gen, dc_cost_function d, k) (list_prod (list_prod (list_prod tspwplib_graphs generations) the_costs) the_kappas)).
    { apply in_prod; [|exact IK]. apply in_prod; [|exact IC]. apply in_prod; assumption. }
    destruct (Forall2_key _ _ _ _ E IP) as (r & I & x & (g & root & ds & g1 & g2 & M & SP & M1 & M2 & S) & CR).
    cbn [src_oplib src_sparsify src_mst src_stats dataset_sources] in M, SP, M1, S.
    rewrite EG in *. destruct (w_oplib W (Some gen) (dc_graph_name d)) as [((g0 & ds0) & sc)|e|u|] eqn:EO;
      [|unfold dataset_oplib in M; rewrite EO in M; discriminate M..].
    destruct (dataset_oplib_same W gen _ _ _ _ GF EO) as (G & DO & EW). rewrite DO in M. injection M as -> ->.
    destruct (RD _ _ _ eq_refl) as (ds1 & ED). injection ED as -> _.
    exists g2, (Some sc), x. eexists. exists r. rewrite RT. cbn [bind]. rewrite EW. cbn [bind]. rewrite EK.
    replace (or_none (Some k)) with (Some k).
    2:{ cbn [or_none]. destruct (Z.eqb_spec k 0) as [->|]; [|reflexivity]. cbn in IK. exfalso. lia. }
    rewrite SP. cbn [bind].
    assert (EC : with_costs W n (dc_cost_function d) g1 = Ok g2).
    { destruct IC as [Q|[Q|[]]]; rewrite <- Q in *.
      - rewrite M2 by discriminate. apply kept_costs. cbn. intuition discriminate.
      - unfold with_costs. cbn. specialize (M1 eq_refl). exact M1. }
    rewrite EC. cbn [bind]. split; [reflexivity|]. split; [exact S|]. split; [eauto|]. split; [exact I|exact CR].
Qed.

(** ** The graph after preprocessing *)

Theorem sizes_ok names_of depth bicomps G D s dist paths root st component depth' algo v :
  get_graph_stats names_of depth bicomps G D s dist paths root = Ok st -> In (fv_pre v) experiment_preprocessing -> dc_root (fv_data v) = root ->
  exists H, run_loaded component bicomps depth' algo v G = algo v H /\
    List.length (pg_adj H) = pre_num_nodes st /\ List.length (py_edges H) = pre_num_edges st /\
    py_total_cost (get_edge_attributes H) (py_edges H) = Ok (pre_total_cost st) /\
    py_total_prize (get_node_attributes H) (nx_nodes (pg_adj H)) = Ok (pre_total_prize st).
Proof.
  intros E [P|[]] R. exists (mkPy (remove_one_connected_components bicomps (pg_adj G) root) (pg_cost G) (pg_prize G)).
  split. { unfold run_loaded. rewrite <- P, R. reflexivity. }
  unfold get_graph_stats in E. set (H := mkPy (remove_one_connected_components bicomps (pg_adj G) root) (pg_cost G) (pg_prize G)) in *.
  apply bind_ok in E as (c & _ & E). apply bind_ok in E as (p & _ & E). apply bind_ok in E as ((T & S) & _ & E).
  apply bind_ok in E as (pm & _ & E). apply bind_ok in E as ((z & o) & _ & E). apply bind_ok in E as (r & _ & E).
  apply bind_ok in E as (cm & _ & E). apply bind_ok in E as (m & _ & E). cbv zeta in E. fold H in E.
  apply bind_ok in E as (pc & E1 & E). apply bind_ok in E as (pp & E2 & E). apply bind_ok in E as (r' & _ & E). injection E as <-.
  cbn [pre_num_nodes pre_num_edges pre_total_cost pre_total_prize]. auto.
Qed.

(** ** The experiments *)

Theorem experiments_tabulated F uuid ds e vs v : experiment_vials F uuid ds e = Ok vs -> In v vs ->
  e <> SimpleBranchCut -> (ds = Londonaq -> e <> Dryrun) ->
  In "gen1" (all_generations F) -> In "gen2" (all_generations F) -> In "gen3" (all_generations F) ->
  (forall name, ~ In (laq_cost F name) ["UNIFORM_RANDOM"; "MST"; "SEMI_MST"]) ->
  dc_dataset (fv_data v) = ds /\ tabulated (all_generations F) (fv_data v) /\ fv_pre v = mkPre false false true false false.
Proof.
  intros E I N1 N2 G1 G2 G3 C.
  assert (TS : forall al kl gl nl cl x, In x (product_of_tspwplib_data_config F al kl gl nl cl) ->
    (forall k, In k kl -> exists z, or_none k = Some z /\ In z the_kappas) -> (forall g, In g gl -> In g (all_generations F)) ->
    (forall g, In g nl -> In g tspwplib_graphs) -> (forall c, In c cl -> In c the_costs) ->
    dc_dataset x = Tspwplib /\ tabulated (all_generations F) x).
  { intros al kl gl nl cl x H HK HG HN HC. apply tsp_in in H as (a & k & g & nm & c & _ & K & G & NN & CC & ->). split; [reflexivity|].
    destruct (HK k K) as (z & Z1 & Z2). refine (conj (HN _ NN) (conj (HC _ CC) _)). exists z, g. auto. }
  assert (LA : forall ql x, In x (product_of_londonaq_data_config F ql londonaq_graph_name_list) -> dc_dataset x = Londonaq /\ tabulated (all_generations F) x).
  { intros ql x H. unfold product_of_londonaq_data_config in H. apply in_map_iff in H as ((q & nm) & <- & H). apply product2_in in H as (_ & H).
    split; [reflexivity|]. refine (conj H (conj (or_introl eq_refl) (C _))). }
  assert (LB : forall al x, In x (product_of_londonaq_data_config_from_alpha F al londonaq_graph_name_list) -> dc_dataset x = Londonaq /\ tabulated (all_generations F) x).
  { intros ql x H. unfold product_of_londonaq_data_config_from_alpha in H. apply in_map_iff in H as ((q & nm) & <- & H). apply product2_in in H as (_ & H).
    split; [reflexivity|]. refine (conj H (conj (or_introl eq_refl) (C _))). }
  assert (X : forall data params, vs = product_of_vials uuid data params experiment_preprocessing ->
    (forall x, In x data -> dc_dataset x = ds /\ tabulated (all_generations F) x) ->
    dc_dataset (fv_data v) = ds /\ tabulated (all_generations F) (fv_data v) /\ fv_pre v = mkPre false false true false false).
  { intros data params -> H. apply vials_in in I as (A & _ & B). destruct (H _ A) as (H1 & H2). split; [exact H1|]. split; [exact H2|].
    destruct B as [B|[]]. symmetry. exact B. }
  unfold experiment_vials in E. destruct ds, e; cbv beta iota zeta delta [in_tsplib_lookup in_londonaq_lookup experiment_function shared_data] in E; try discriminate E; try (exfalso; apply N2; reflexivity); try (exfalso; apply N1; reflexivity);
    injection E as E; symmetry in E; apply (X _ _ E); intros x J;
    solve [ exact (LA _ _ J) | exact (LB _ _ J)
          | refine (TS _ _ _ _ _ _ J _ _ _ _); [intros k K; cbn in K; repeat (destruct K as [<-|K]; [eexists; split; [reflexivity|cbn; tauto]|]); destruct K
              |intros g K; cbn in K; solve [exact K|intuition (subst; assumption)]|intros g K; cbn in K |- *; tauto|intros g K; cbn in K |- *; tauto] ].
Qed.

(** ** The commands *)

Theorem londonaq_command_graph W R uuid name cost quota leaves params v : londonaq_vial W uuid name cost quota leaves params = Ok v ->
  londonaq_root R = Some true -> ~ In cost ["UNIFORM_RANDOM"; "MST"; "SEMI_MST"] ->
  exists G root ds, dataset_londonaq W name = Ok (G, root :: ds) /\ dc_root (fv_data v) = root /\ dc_quota (fv_data v) = quota /\
    (forall n pr, load_vial W R n pr (fv_data v) = Ok (G, pr)) /\
    fv_params v = params /\ fv_uuid v = uuid /\ fv_pre v = mkPre false leaves true false false.
Proof.
  unfold londonaq_vial. intros E RT C. apply bind_ok in E as ((G & ds) & ED & E). apply bind_ok in E as (root & EF & E). injection E as <-.
  destruct ds as [|r ds]; [discriminate|]. injection EF as <-. exists G, r, ds. split; [exact ED|]. split; [reflexivity|]. split; [reflexivity|].
  split; [|auto]. intros n pr. destruct (dataset_londonaq_same _ _ _ _ ED) as (g & EL & EW).
  unfold load_vial, read_problem. cbn [fv_data dc_dataset dc_graph_name dc_kappa dc_cost_function or_none]. rewrite RT, EL. cbn [bind].
  rewrite EW. cbn [bind]. rewrite (kept_costs _ _ _ _ C). reflexivity.
Qed.

(** ** The loop of M_Lab *)

(** What loading and running the vials of a list gives. *)
Fixpoint plan (W : world) (R : roots) (solve : full_vial -> pygraph -> res Z) (n : nat) (pr : option (list (nat * Z))) (vs : list full_vial)
    : list (nat * (res unit * option Z)) :=
  match vs with
  | [] => []
  | v :: r =>
    match load_vial W R n pr (fv_data v) with
    | Ok (G, pr') => (fv_uuid v, (Ok tt, match solve v G with Ok z => Some z | _ => None end)) :: plan W R solve (S n) pr' r
    | Throw e => [(fv_uuid v, (Throw e, None))]
    | UB u => [(fv_uuid v, (UB u, None))]
    | OutOfFuel => [(fv_uuid v, (OutOfFuel, None))]
    end
  end.

Lemma plan_keys W R solve vs : forall n pr u x, In (u, x) (plan W R solve n pr vs) -> In u (map fv_uuid vs).
Proof.
  induction vs as [|v vs IH]; intros n pr u x I; [destruct I|]. cbn [plan] in I. cbn [map].
  destruct (load_vial W R n pr (fv_data v)) as [(G, pr')|e|b|]; destruct I as [I|I]; try (injection I as -> _; left; reflexivity); try destruct I.
  right. exact (IH _ _ _ _ I).
Qed.

Lemma plan_dget W R solve vs : NoDup (map fv_uuid vs) -> forall n pr u x, In (u, x) (plan W R solve n pr vs) -> dget (plan W R solve n pr vs) u = Some x.
Proof.
  induction vs as [|v vs IH]; intros N n pr u x I; [destruct I|]. cbn [map] in N. apply NoDup_cons_iff in N as (NI & N). cbn [plan] in I |- *.
  destruct (load_vial W R n pr (fv_data v)) as [(G, pr')|e|b|]; cbn [dget]; destruct I as [I|I];
    try (injection I as -> ->; rewrite Nat.eqb_refl; reflexivity); try destruct I.
  destruct (Nat.eqb_spec u (fv_uuid v)) as [->|_]; [|exact (IH N _ _ _ _ I)]. exfalso. apply NI. exact (plan_keys _ _ _ _ _ _ _ _ I).
Qed.

Lemma written_snoc a u z st : written (a ++ [(u, z)]) st = write_result (written a st) u z.
Proof. unfold written. rewrite fold_left_app. reflexivity. Qed.

Lemma plan_run W R solve load solve' st vs : (forall v G, In v vs -> (exists z, solve v G = Ok z) \/ exists e, solve v G = Throw e) ->
  forall n pr acc, (forall u m o, In (u, (m, o)) (plan W R solve n pr vs) -> forall v, v_uuid v = u -> load v = m /\ solve' v = o) ->
  foldM (fun '(results, st) v =>
    do _ <- load v;
    match solve' v with
    | Some prize => Ok ((results ++ [(v_uuid v, prize)])%list, write_result st (v_uuid v) prize)
    | None => Ok (results, st)
    end) (map short vs) (acc, written acc st) =
  match lab_rounds W R solve n pr vs acc with
  | (Ok _, out) => Ok (out, written out st) | (Throw e, _) => Throw e | (UB u, _) => UB u | (OutOfFuel, _) => OutOfFuel
  end.
Proof.
  induction vs as [|v vs IH]; intros S n pr acc H; [reflexivity|].
  cbn [map foldM lab_rounds]. cbn [plan] in H.
  destruct (load_vial W R n pr (fv_data v)) as [(G, pr')|e|b|] eqn:EL.
  - destruct (H _ _ _ (or_introl eq_refl) (short v) eq_refl) as (-> & ->). cbn [bind].
    assert (K : forall u m o, In (u, (m, o)) (plan W R solve (Datatypes.S n) pr' vs) -> forall v, v_uuid v = u -> load v = m /\ solve' v = o).
    { intros u m o I. apply H. right. exact I. }
    assert (S' : forall v G, In v vs -> (exists z, solve v G = Ok z) \/ exists e, solve v G = Throw e) by (intros; apply S; right; assumption).
    destruct (S v G (or_introl eq_refl)) as [(z & E)|(e & E)]; rewrite E; cbn [bind v_uuid short].
    + rewrite <- (written_snoc acc (fv_uuid v) z st). apply IH; assumption.
    + apply IH; assumption.
  - destruct (H _ _ _ (or_introl eq_refl) (short v) eq_refl) as (-> & _). reflexivity.
  - destruct (H _ _ _ (or_introl eq_refl) (short v) eq_refl) as (-> & _). reflexivity.
  - destruct (H _ _ _ (or_introl eq_refl) (short v) eq_refl) as (-> & _). reflexivity.
Qed.

Theorem lab_refines W R solve vs : NoDup (map fv_uuid vs) ->
  (forall v G, In v vs -> (exists z, solve v G = Ok z) \/ exists e, solve v G = Throw e) ->
  exists load solve', forall st, run_experiment_from_vial_list load solve' (map short vs) st =
    match lab_run W R solve vs with
    | (Ok _, out) => Ok (out, written out st) | (Throw e, _) => Throw e | (UB u, _) => UB u | (OutOfFuel, _) => OutOfFuel
    end.
Proof.
  intros N S. set (T := plan W R solve 0 None vs).
  exists (fun v => match dget T (v_uuid v) with Some (m, _) => m | None => Ok tt end),
    (fun v => match dget T (v_uuid v) with Some (_, o) => o | None => None end). intro st.
  unfold run_experiment_from_vial_list, lab_run. apply (plan_run W R solve _ _ st vs S 0 None []).
  intros u m o I v <-. unfold T. rewrite (plan_dget _ _ _ _ N _ _ _ _ I). auto.
Qed.

(** ** All attributes are there *)

Theorem attributes_ok W R n pr d G pr' : good_files W -> keeps_attributes W -> all_scored W -> load_vial W R n pr d = Ok (G, pr') ->
  attributes_given (pg_adj G) (pg_cost G) (pg_prize G).
Proof.
  intros GF KA AS E. destruct (load_described _ _ _ _ _ _ _ GF E) as (_ & G0 & G1 & o & IG & SP & _ & RP).
  assert (A0 : attributes_given (pg_adj G0) (pg_cost G0) (pg_prize G0)).
  { unfold instance_graph in IG. destruct GF as (GL & GO & _). destruct (dc_dataset d).
    - destruct IG as (g & ds & EL & A & B & C). destruct (GL _ _ _ EL) as ((_ & _ & H) & D). rewrite A. split.
      + intros v V. rewrite C by exact V. apply D, V.
      + intros u v H'. rewrite B by exact H'. apply H, H'.
    - destruct IG as (g & ds & sc & EL & A & B & C). destruct (GO _ _ _ _ _ EL) as ((_ & _ & H) & D). rewrite A. split.
      + intros v V. rewrite C by exact V. exact (AS _ _ _ _ _ EL v V).
      + intros u v H'. rewrite B by exact H'. apply H, H'. }
  assert (A1 : attributes_given (pg_adj G1) (pg_cost G1) (pg_prize G1)).
  { destruct (dc_kappa d) as [k|]; [|subst G1; exact A0]. destruct (Z.eq_dec k 0) as [Z|Z]; [rewrite (proj1 SP Z); exact A0|].
    exact (KA _ _ _ A0 (proj2 SP Z)). }
  destruct o as [c|]; [|subst G; exact A1]. destruct RP as (A & B & C), A1 as (P & Q). rewrite A. split.
  - intros v V. rewrite B. apply P, V.
  - intros u v H. rewrite C by exact H. destruct (priced c u v) as [x|]; [eauto|apply Q, H].
Qed.

(** ** Missing demands *)
Lemma rename_nodes_bad vs : forall g v, In v vs -> ag_demand g v = None -> exists g', rename_nodes vs g = (g', false).
Proof.
  induction vs as [|w vs IH]; intros g v I D; [destruct I|]. cbn [rename_nodes]. destruct (ag_demand g w) as [x|] eqn:E; [|eexists; reflexivity].
  destruct I as [->|I]; [congruence|]. apply (IH _ v I). cbn [ag_demand]. unfold set_node. destruct (Nat.eqb_spec v w) as [->|]; [reflexivity|exact D].
Qed.

Lemma no_demand W uuid name cost quota leaves params g ds v : w_londonaq W name = Ok (g, ds) -> weighted g -> vertex (ag_adj g) v -> ag_demand g v = None ->
  dataset_londonaq W name = Throw KeyErrorPy /\ londonaq_vial W uuid name cost quota leaves params = Throw KeyErrorPy.
Proof.
  intros E WG V D. assert (X : dataset_londonaq W name = Throw KeyErrorPy).
  { unfold dataset_londonaq. rewrite E. cbn [bind]. destruct (rename_ok g WG) as (w & c & R & _). rewrite R. cbn [bind]. unfold rename_node_attributes.
    destruct (rename_nodes_bad (nx_nodes (ag_adj g)) (mkAttr (ag_adj g) w c (ag_demand g) (ag_prize g)) v V D) as (g' & Q).
    cbn [ag_adj]. rewrite Q. reflexivity. }
  split; [exact X|]. unfold londonaq_vial. rewrite X. reflexivity.
Qed.
