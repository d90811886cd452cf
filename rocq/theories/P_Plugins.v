(** * P_Plugins: proofs about the handlers given to SCIP *)
From Coq Require Import String Permutation Sorting.Sorted.
From Verif Require Import Base Graph Spec Spec_Cycle M_Walk M_Graph M_Dijkstra M_Solution M_ILP M_Subtour M_CycleCover M_CostCover
  M_MaxFlow M_Handler M_Solve M_Plugins Spec_ILP Spec_Handler Spec_Plugins.
From Verif Require Import P_Base.
Open Scope string_scope.
Open Scope list_scope.
Open Scope nat_scope.

(** ** the tables *)
Lemma find_none s name : find_conshdlr s name = None <-> ~ In name (map c_name (sc_conshdlrs s)).
Proof.
  unfold find_conshdlr. induction (sc_conshdlrs s) as [|h l IH]; cbn [find map In]; [tauto|].
  destruct (String.eqb_spec (c_name h) name) as [E|E].
  - split; [discriminate|]. intros H. exfalso. auto.
  - rewrite IH. tauto.
Qed.

Lemma find_named l name h : find (fun h => String.eqb (c_name h) name) l = Some h <-> named l name h.
Proof.
  unfold named. induction l as [|x l IH]; cbn [find].
  - split; [discriminate|]. intros (l1 & l2 & E & _). destruct l1; discriminate.
  - destruct (String.eqb_spec (c_name x) name) as [E|E].
    + split.
      * intros [= <-]. exists [], l. cbn. auto.
      * intros (l1 & l2 & E1 & E2 & E3). destruct l1 as [|y l1]; cbn in E1; injection E1 as -> E1; [reflexivity|].
        exfalso. apply E3. cbn. auto.
    + rewrite IH. split.
      * intros (l1 & l2 & -> & E2 & E3). exists (x :: l1), l2. split; [reflexivity|]. split; [exact E2|]. cbn. tauto.
      * intros (l1 & l2 & E1 & E2 & E3). destruct l1 as [|y l1]; cbn in E1; injection E1 as -> E1; [contradiction|].
        exists l1, l2. split; [exact E1|]. split; [exact E2|]. cbn in E3. tauto.
Qed.

Lemma ev_find_none s name : find_evhdlr s name = None <-> ~ In name (map e_name (sc_evhdlrs s)).
Proof.
  unfold find_evhdlr. induction (sc_evhdlrs s) as [|h l IH]; cbn [find map In option_map]; [tauto|].
  destruct (String.eqb_spec (e_name h) name) as [E|E].
  - split; [discriminate|]. intros H. exfalso. auto.
  - rewrite IH. tauto.
Qed.

Lemma ev_find_named s name k : find_evhdlr s name = Some k <-> ev_named (sc_evhdlrs s) name k.
Proof.
  unfold find_evhdlr, ev_named. induction (sc_evhdlrs s) as [|x l IH]; cbn [find option_map].
  - split; [discriminate|]. intros (l1 & l2 & E & _). destruct l1; discriminate.
  - destruct (String.eqb_spec (e_name x) name) as [E|E].
    + split.
      * intros [= <-]. exists [], l. cbn. subst name. destruct x; auto.
      * intros (l1 & l2 & E1 & E3). destruct l1 as [|y l1]; cbn in E1; injection E1 as -> E1; [reflexivity|].
        exfalso. apply E3. cbn. auto.
    + rewrite IH. split.
      * intros (l1 & l2 & -> & E3). exists (x :: l1), l2. split; [reflexivity|]. cbn. tauto.
      * intros (l1 & l2 & E1 & E3). destruct l1 as [|y l1]; cbn in E1; injection E1 as -> E1; [cbn in E; contradiction|].
        exists l1, l2. split; [exact E1|]. cbn in E3. tauto.
Qed.

Lemma params_in_range h : params_ok h = true <-> in_range h.
Proof.
  unfold params_ok, in_range, frequency. cbn [forallb]. rewrite !Bool.andb_true_iff, !Z.leb_le. intuition.
Qed.

Lemma include_new h s : in_range h -> ~ In (c_name h) (map c_name (sc_conshdlrs s)) ->
  include_conshdlr h s = (mkScip (sc_conshdlrs s ++ [h]) (sc_evhdlrs s) (sc_conss s) (sc_rows s), Okay).
Proof.
  intros R H. unfold include_conshdlr. rewrite (proj2 (find_none _ _) H). now rewrite (proj2 (params_in_range h) R).
Qed.

Lemma cycle_cover_in_range : in_range cycle_cover_conshdlr.
Proof. apply params_in_range. reflexivity. Qed.

Lemma sec_in_range d f k q : frequency q -> in_range (sec_conshdlr d f k q).
Proof. intros H. unfold in_range, frequency in *. cbn. lia. Qed.

Lemma ev_include_new h s : ~ In (e_name h) (map e_name (sc_evhdlrs s)) ->
  include_evhdlr h s = (mkScip (sc_conshdlrs s) (sc_evhdlrs s ++ [h]) (sc_conss s) (sc_rows s), Okay).
Proof. intros H. unfold include_evhdlr. now rewrite (proj2 (ev_find_none _ _) H). Qed.

Lemma include_all_new hs : forall s, Forall in_range hs -> NoDup (map c_name hs) ->
  (forall n, In n (map c_name hs) -> ~ In n (map c_name (sc_conshdlrs s))) ->
  include_all hs s = (mkScip (sc_conshdlrs s ++ hs) (sc_evhdlrs s) (sc_conss s) (sc_rows s), Okay).
Proof.
  induction hs as [|h hs IH]; intros s Hr Hn Hd; cbn [include_all map] in *.
  - rewrite app_nil_r. now destruct s.
  - apply NoDup_cons_iff in Hn as [H1 H2]. apply Forall_cons_iff in Hr as [R1 R2].
    rewrite include_new by (exact R1 || (apply Hd; now left)). rewrite IH; [|exact R2|exact H2|].
    + cbn [sc_conshdlrs sc_evhdlrs sc_conss sc_rows]. now rewrite <- app_assoc.
    + cbn [sc_conshdlrs]. intros n Hi. rewrite map_app, in_app_iff. cbn [map In]. intros [H|[H|[]]].
      * revert H. apply Hd. now right.
      * subst n. contradiction.
Qed.

(** ** a fresh SCIP *)
Lemma create_ok name hdlr s : In hdlr (map c_name (sc_conshdlrs s)) ->
  create_and_add name hdlr s = Ok (mkScip (sc_conshdlrs s) (sc_evhdlrs s)
    (sc_conss s ++ [mkCons name hdlr [false; true; true; true; true; false; false; false; true; false]]) (sc_rows s)).
Proof.
  intros H. unfold create_and_add. destruct (find_conshdlr s hdlr) eqn:E; [reflexivity|]. apply find_none in E. contradiction.
Qed.

Lemma install_model_fresh defaults o rows : frequency (po_sepafreq o) -> (po_simple o = true \/ good_defaults defaults) ->
  let hs := wanted_conshdlrs defaults (mkOptions (mkFlags false false false (fl_sec_disjoint (po_flags o)) (fl_sec_maxflow (po_flags o)))
              (po_tailing o) (po_sepafreq o) (po_simple o)) in
  install_model defaults o rows fresh = Ok (mkScip hs [] [mkCons "subtour-constraint" "pctsp_sec_handler"
     [false; true; true; true; true; false; false; false; true; false]] rows).
Proof.
  intros Hf H hs. unfold install_model. destruct (po_simple o) eqn:Es.
  - cbn zeta. set (s1 := fold_left _ _ _). cbv in s1. subst s1. cbn [create_prob sc_conshdlrs sc_evhdlrs sc_conss sc_rows].
    rewrite include_new; [|now apply sec_in_range|cbn; intuition discriminate].
    subst hs. unfold wanted_conshdlrs, of_scip, of_this_code. cbn [po_simple po_flags po_tailing po_sepafreq fl_cycle_cover]. reflexivity.
  - destruct H as [H|(H0 & H1 & H2 & H3)]; [discriminate|].
    rewrite include_all_new; [|exact H0|exact H1|intros n _ []]. cbn [fst fresh create_prob sc_conshdlrs sc_evhdlrs sc_conss sc_rows app].
    rewrite include_new by (exact H2 || now apply sec_in_range). cbn [fst sc_conshdlrs sc_evhdlrs sc_conss sc_rows].
    rewrite create_ok.
    + cbn [sc_conshdlrs sc_evhdlrs sc_conss sc_rows app]. subst hs. unfold wanted_conshdlrs, of_scip, of_this_code.
      reflexivity.
    + cbn [sc_conshdlrs]. rewrite map_app, in_app_iff. right. now left.
Qed.

Lemma set_cover_last s name o o' rows : ~ In name (map e_name (sc_evhdlrs s)) ->
  set_cover (mkScip (sc_conshdlrs s) (sc_evhdlrs s ++ [mkEvhdlr name (ECover o)]) (sc_conss s) (sc_rows s)) name o' rows =
  mkScip (sc_conshdlrs s) (sc_evhdlrs s ++ [mkEvhdlr name (ECover o')]) (sc_conss s) (sc_rows s ++ rows).
Proof.
  intros H. unfold set_cover. cbn [sc_conshdlrs sc_evhdlrs sc_conss sc_rows]. f_equal. rewrite map_app. cbn [map e_name].
  rewrite String.eqb_refl. f_equal. induction (sc_evhdlrs s) as [|h l IH]; [reflexivity|]. cbn [map In] in *.
  destruct (String.eqb_spec (e_name h) name) as [E|E]; [exfalso; auto|]. f_equal. apply IH. auto.
Qed.

Lemma ev_find_last s name k : ~ In name (map e_name (sc_evhdlrs s)) ->
  find_evhdlr (mkScip (sc_conshdlrs s) (sc_evhdlrs s ++ [mkEvhdlr name k]) (sc_conss s) (sc_rows s)) name = Some k.
Proof. intros H. apply ev_find_named. exists (sc_evhdlrs s), []. auto. Qed.

Lemma install_cover_new g c root heur ub name dist s : total_cost_edges c heur = Ok ub ->
  ~ In name (map e_name (sc_evhdlrs s)) ->
  install_cover g (var_map g) root ub name dist s =
  do h <- init_cost_cover g c (var_map g) root heur dist;
  Ok (mkScip (sc_conshdlrs s) (sc_evhdlrs s ++ cover_handler name (Some h)) (sc_conss s) (sc_rows s ++ ch_rows h)).
Proof.
  intros Hu Hn. unfold install_cover, init_cost_cover. rewrite Hu. cbn [bind]. rewrite ev_include_new by exact Hn. cbn [fst].
  destruct (0 <? ub)%Z; cbn [bind].
  - rewrite ev_find_last by exact Hn. cbn [co_dist co_added co_init].
    destruct (separate_then_add g (var_map g) root dist ub) as [r| | |]; cbn [bind]; try reflexivity.
    rewrite set_cover_last by exact Hn. reflexivity.
  - unfold new_cover_hdlr. cbn [cover_handler ch_dist ch_added ch_init ch_rows]. now rewrite app_nil_r.
Qed.

Lemma fresh_install tb defaults o m heur root dist : frequency (po_sepafreq o) -> (po_simple o = true \/ good_defaults defaults) ->
  install tb defaults o m heur root dist fresh =
  do b <- solve_setup tb (po_flags o) m heur root dist; Ok (wanted defaults o m b).
Proof.
  intros Hf H. unfold install. rewrite install_model_fresh by assumption. cbn [bind]. unfold solve_setup.
  set (hs := wanted_conshdlrs _ _).
  destruct (total_cost_edges (i_cost m) heur) as [ub| | |] eqn:Eu; cbn [bind]; try reflexivity.
  set (s0 := mkScip hs [] _ (i_cons m)).
  assert (F : forall (b : bc), b_dp b = b_dp b ->
    (do s <- (if fl_cycle_cover (po_flags o)
              then create_and_add "cycle_cover_" cycle_cover_name
                     (fst (include_conshdlr cycle_cover_conshdlr
                        (mkScip hs (cover_handler "Disjoint paths cost cover" (b_dp b) ++ cover_handler "Shortest path cost cover" (b_sp b))
                           (sc_conss s0) (i_cons m ++ opt_rows (b_dp b) ++ opt_rows (b_sp b)))))
              else Ok (mkScip hs (cover_handler "Disjoint paths cost cover" (b_dp b) ++ cover_handler "Shortest path cost cover" (b_sp b))
                           (sc_conss s0) (i_cons m ++ opt_rows (b_dp b) ++ opt_rows (b_sp b))));
     let s1 := fst (include_evhdlr (mkEvhdlr node_name ENode) s) in
     Ok (fst (include_evhdlr (mkEvhdlr bound_name EBounds) s1))) = Ok (wanted defaults o m b)).
  { intros b _.
    set (ev := cover_handler "Disjoint paths cost cover" (b_dp b) ++ cover_handler "Shortest path cost cover" (b_sp b)).
    assert (Hev : forall n, In n (map e_name ev) -> n = "Disjoint paths cost cover" \/ n = "Shortest path cost cover").
    { intros n. subst ev. rewrite map_app, in_app_iff. destruct (b_dp b), (b_sp b); cbn; intuition. }
    set (rows := i_cons m ++ _ ++ _).
    assert (G : forall hs' ks, (let s1 := fst (include_evhdlr (mkEvhdlr node_name ENode) (mkScip hs' ev ks rows)) in
        Ok (fst (include_evhdlr (mkEvhdlr bound_name EBounds) s1))) =
        Ok (mkScip hs' (ev ++ [mkEvhdlr "pctsp_node_handler" ENode; mkEvhdlr "pctsp_bound_handler" EBounds]) ks rows)).
    { intros hs' ks. cbn zeta. rewrite (ev_include_new (mkEvhdlr node_name ENode));
        [|cbn [e_name sc_evhdlrs]; intros Hi; apply Hev in Hi as [Hi|Hi]; discriminate].
      cbn [fst sc_conshdlrs sc_evhdlrs sc_conss sc_rows]. rewrite ev_include_new.
      - cbn [fst sc_conshdlrs sc_evhdlrs sc_conss sc_rows]. now rewrite <- app_assoc.
      - cbn [e_name sc_evhdlrs]. rewrite map_app, in_app_iff. cbn [map In e_name].
        intros [Hi|[Hi|[]]]; [apply Hev in Hi as [Hi|Hi]; discriminate|discriminate]. }
    unfold wanted. fold ev. rewrite app_assoc. fold ev.
    unfold wanted_conss. subst hs s0. unfold wanted_conshdlrs, of_scip, of_this_code at 1.
    destruct (fl_cycle_cover (po_flags o)) eqn:Ec.
    - rewrite include_new; [|exact cycle_cover_in_range|].
      + cbn [fst sc_conshdlrs sc_evhdlrs sc_conss sc_rows]. rewrite create_ok.
        * cbn [bind sc_conshdlrs sc_evhdlrs sc_conss sc_rows]. rewrite G. unfold wanted_conshdlrs, of_scip, of_this_code.
          cbn [po_simple po_flags po_tailing po_sepafreq fl_cycle_cover fl_sec_disjoint fl_sec_maxflow]. rewrite Ec.
          rewrite <- !app_assoc. reflexivity.
        * cbn [sc_conshdlrs]. rewrite map_app, in_app_iff. right. now left.
      + cbn [sc_conshdlrs po_simple po_flags fl_cycle_cover]. rewrite map_app, in_app_iff. cbn [map In c_name cycle_cover_conshdlr].
        intros [Hi|[Hi|[]]]; [|discriminate]. destruct (po_simple o).
        * cbn [map In c_name] in Hi. repeat (destruct Hi as [Hi|Hi]; [discriminate|]). exact Hi.
        * destruct H as [H|(_ & _ & _ & H3)]; [discriminate|]. contradiction.
    - cbn [bind]. rewrite G. unfold wanted_conshdlrs, of_scip, of_this_code.
      cbn [po_simple po_flags po_tailing po_sepafreq fl_cycle_cover fl_sec_disjoint fl_sec_maxflow]. rewrite Ec. reflexivity. }
  assert (P : forall h, (if fl_disjoint_paths (po_flags o)
      then do x <- init_cost_cover (i_graph m) (i_cost m) (var_map (i_graph m)) root heur dist; Ok (Some x) else Ok None) = h ->
    (if fl_disjoint_paths (po_flags o) then install_cover (i_graph m) (var_map (i_graph m)) root ub disjoint_name dist s0 else Ok s0) =
    do h <- h; Ok (mkScip hs (cover_handler "Disjoint paths cost cover" h) (sc_conss s0) (i_cons m ++ opt_rows h))).
  { intros h <-. destruct (fl_disjoint_paths (po_flags o)).
    - rewrite (install_cover_new _ (i_cost m) root heur) by (auto || intros []).
      destruct (init_cost_cover _ _ _ _ _ _); reflexivity.
    - cbn [bind cover_handler opt_rows]. now rewrite app_nil_r. }
  rewrite (P _ eq_refl). clear P.
  destruct (if fl_disjoint_paths (po_flags o) then _ else Ok None) as [dp| | |]; cbn [bind]; try reflexivity.
  assert (P : forall h, (if fl_shortest_path (po_flags o)
      then do ds <- shortest_path_distances tb (i_graph m) (i_cost m) (i_cost m) root;
           do x <- init_cost_cover (i_graph m) (i_cost m) (var_map (i_graph m)) root heur ds; Ok (Some x) else Ok None) = h ->
    (let s1 := mkScip hs (cover_handler "Disjoint paths cost cover" dp) (sc_conss s0) (i_cons m ++ opt_rows dp) in
     if fl_shortest_path (po_flags o)
     then do ds <- shortest_path_distances tb (i_graph m) (i_cost m) (i_cost m) root;
          install_cover (i_graph m) (var_map (i_graph m)) root ub shortest_name ds s1 else Ok s1) =
    do h <- h; Ok (mkScip hs (cover_handler "Disjoint paths cost cover" dp ++ cover_handler "Shortest path cost cover" h) (sc_conss s0)
                     (i_cons m ++ opt_rows dp ++ opt_rows h))).
  { intros h <-. cbn zeta. destruct (fl_shortest_path (po_flags o)).
    - destruct (shortest_path_distances _ _ _ _ _) as [ds| | |]; cbn [bind]; try reflexivity.
      rewrite (install_cover_new _ (i_cost m) root heur); [|exact Eu|].
      + cbn [sc_conshdlrs sc_evhdlrs sc_conss sc_rows]. destruct (init_cost_cover _ _ _ _ _ _); cbn [bind]; try reflexivity.
        cbn [opt_rows]. now rewrite <- app_assoc.
      + cbn [sc_evhdlrs]. destruct dp; cbn; [intros [Hi|[]]; discriminate|tauto].
    - cbn [bind cover_handler opt_rows]. now rewrite !app_nil_r. }
  cbn zeta in P. rewrite (P _ eq_refl). clear P.
  destruct (if fl_shortest_path (po_flags o) then _ else Ok None) as [sp| | |]; cbn [bind]; try reflexivity.
  exact (F (mkBc dp sp [] 0 0 [] 0) eq_refl).
Qed.

(** ** any SCIP *)
Notation cfind l name := (find (fun h => String.eqb (c_name h) name) l).

Lemma find_app {A} (f : A -> bool) l1 l2 : find f (l1 ++ l2) = match find f l1 with Some x => Some x | None => find f l2 end.
Proof. induction l1 as [|x l1 IH]; cbn [app find]; [reflexivity|]. now destruct (f x). Qed.

Lemma include_find h s name : in_range h ->
  cfind (sc_conshdlrs (fst (include_conshdlr h s))) name = cfind (sc_conshdlrs s ++ [h]) name.
Proof.
  intros R. apply params_in_range in R.
  unfold include_conshdlr. rewrite R. destruct (find_conshdlr s (c_name h)) as [x|] eqn:E; [|reflexivity]. cbn [fst].
  rewrite find_app. cbn [find]. destruct (String.eqb_spec (c_name h) name) as [<-|]; [|now destruct (cfind _ _)].
  unfold find_conshdlr in E. now rewrite E.
Qed.

Lemma include_rest h s : let s' := fst (include_conshdlr h s) in
  sc_evhdlrs s' = sc_evhdlrs s /\ sc_conss s' = sc_conss s /\ sc_rows s' = sc_rows s.
Proof. unfold include_conshdlr. destruct (find_conshdlr s (c_name h)), (params_ok h); cbn; auto. Qed.

(** Whatever the parameters: if a handler of that name is there afterwards, it is as if it were there or came. *)
Lemma include_find_there h s : cfind (sc_conshdlrs (fst (include_conshdlr h s))) (c_name h) <> None -> forall name,
  cfind (sc_conshdlrs (fst (include_conshdlr h s))) name = cfind (sc_conshdlrs s ++ [h]) name.
Proof.
  intros H name. unfold include_conshdlr in *. destruct (find_conshdlr s (c_name h)) as [x|] eqn:E.
  - cbn [fst] in *. rewrite find_app. cbn [find]. destruct (String.eqb_spec (c_name h) name) as [<-|]; [|now destruct (cfind (sc_conshdlrs s) name)].
    unfold find_conshdlr in E. now rewrite E.
  - destruct (params_ok h); [reflexivity|]. cbn [fst] in H. unfold find_conshdlr in E. contradiction.
Qed.

Lemma include_fold hs : Forall in_range hs -> forall s, let s' := fold_left (fun s h => fst (include_conshdlr h s)) hs s in
  sc_evhdlrs s' = sc_evhdlrs s /\ forall name, cfind (sc_conshdlrs s') name = cfind (sc_conshdlrs s ++ hs) name.
Proof.
  induction hs as [|h hs IH]; intros R s; cbn [fold_left] in *; cbn zeta in *.
  - split; [reflexivity|]. intros name. now rewrite app_nil_r.
  - apply Forall_cons_iff in R as [R1 R2]. destruct (IH R2 (fst (include_conshdlr h s))) as [E1 E2]. destruct (include_rest h s) as [E3 _]. split; [congruence|].
    intros name. rewrite E2, find_app, (include_find h s name R1), (find_app _ (sc_conshdlrs s) (h :: hs)), find_app. cbn [find].
    destruct (cfind (sc_conshdlrs s) name); [reflexivity|]. destruct (String.eqb (c_name h) name); reflexivity.
Qed.

Lemma include_all_some hs : forall s, Forall in_range hs -> NoDup (map c_name hs) -> exists l rest, hs = l ++ rest /\
  fst (include_all hs s) = mkScip (sc_conshdlrs s ++ l) (sc_evhdlrs s) (sc_conss s) (sc_rows s) /\
  (forall h, In h l -> ~ In (c_name h) (map c_name (sc_conshdlrs s))) /\
  (rest = [] \/ exists h rest', rest = h :: rest' /\ In (c_name h) (map c_name (sc_conshdlrs s))).
Proof.
  induction hs as [|h hs IH]; intros s Hr Hn; cbn [include_all map] in *.
  - exists [], []. cbn [fst]. rewrite !app_nil_r. split; [reflexivity|]. split; [now destruct s|]. split; [intros h []|auto].
  - apply NoDup_cons_iff in Hn as [H1 H2]. apply Forall_cons_iff in Hr as [R1 R2]. apply params_in_range in R1.
    unfold include_conshdlr. rewrite R1. destruct (find_conshdlr s (c_name h)) as [x|] eqn:E.
    + exists [], (h :: hs). cbn [fst]. rewrite app_nil_r. split; [reflexivity|]. split; [now destruct s|]. split; [intros y []|].
      right. exists h, hs. split; [reflexivity|]. destruct (in_dec string_dec (c_name h) (map c_name (sc_conshdlrs s))) as [Hi|Hi]; [exact Hi|].
      apply find_none in Hi. congruence.
    + apply find_none in E. set (s1 := mkScip _ _ _ _). destruct (IH s1 R2 H2) as (l & rest & E1 & E2 & E3 & E4).
      exists (h :: l), rest. split; [now rewrite E1|]. split.
      { rewrite E2. subst s1. cbn [sc_conshdlrs sc_evhdlrs sc_conss sc_rows]. now rewrite <- app_assoc. }
      subst s1. cbn [sc_conshdlrs] in E3, E4. split.
      * intros y [<-|Hy]; [exact E|]. intros Hi. apply (E3 y Hy). rewrite map_app, in_app_iff. now left.
      * destruct E4 as [E4|(y & rest' & -> & Hi)]; [now left|]. right. exists y, rest'. split; [reflexivity|].
        rewrite map_app, in_app_iff in Hi. cbn [map In] in Hi. destruct Hi as [Hi|[Hi|[]]]; [exact Hi|].
        exfalso. apply H1. rewrite E1, map_app, in_app_iff. right. rewrite Hi. now left.
Qed.

Lemma create_inv name hdlr s s' : create_and_add name hdlr s = Ok s' ->
  s' = mkScip (sc_conshdlrs s) (sc_evhdlrs s)
    (sc_conss s ++ [mkCons name hdlr [false; true; true; true; true; false; false; false; true; false]]) (sc_rows s).
Proof. unfold create_and_add. destruct (find_conshdlr s hdlr); [intros [= <-]; reflexivity|discriminate]. Qed.

Lemma create_fine name hdlr s : cfind (sc_conshdlrs s) hdlr <> None -> exists s', create_and_add name hdlr s = Ok s'.
Proof. intros H. unfold create_and_add, find_conshdlr. destruct (cfind _ _); [eauto|contradiction]. Qed.

Definition wflags : list bool := [false; true; true; true; true; false; false; false; true; false].

Lemma model_any defaults o rows s s' : Forall in_range defaults -> NoDup (map c_name defaults) ->
  install_model defaults o rows s = Ok s' ->
  sc_evhdlrs s' = sc_evhdlrs s /\ sc_conss s' = [mkCons "subtour-constraint" "pctsp_sec_handler" wflags] /\ sc_rows s' = rows /\
  exists l, comes defaults o (sc_conshdlrs s) l /\
    forall name, cfind (sc_conshdlrs s') name =
      cfind (sc_conshdlrs s ++ l ++ [sec_conshdlr (fl_sec_disjoint (po_flags o)) (fl_sec_maxflow (po_flags o)) (po_tailing o) (po_sepafreq o)]) name.
Proof.
  intros Hr Hn. unfold install_model. set (sec := sec_conshdlr _ _ _ _). set (s1 := if po_simple o then _ else _).
  assert (H1 : sc_evhdlrs s1 = sc_evhdlrs s /\ exists l, comes defaults o (sc_conshdlrs s) l /\
    forall name, cfind (sc_conshdlrs s1) name = cfind (sc_conshdlrs s ++ l) name).
  { subst s1. destruct (po_simple o) eqn:Es.
    - assert (R : Forall in_range [linear_conshdlr; integral_conshdlr; knapsack_conshdlr; varbound_conshdlr])
        by (repeat constructor; apply params_in_range; reflexivity).
      destruct (include_fold _ R s) as [E1 E2].
      split; [exact E1|]. eexists. split; [left; split; [exact Es|reflexivity]|]. unfold of_scip. rewrite Es. exact E2.
    - destruct (include_all_some defaults s Hr Hn) as (l & rest & E1 & E2 & E3 & E4). rewrite E2. split; [reflexivity|].
      exists l. split; [|reflexivity]. right. split; [exact Es|]. exists rest. auto. }
  destruct H1 as (E1 & l & Hl & E2). set (s2 := mkScip _ _ _ _). intros E.
  pose proof (include_rest sec s2) as (R1 & R2 & R3). pose proof (include_find_there sec s2) as F.
  assert (G : forall name, cfind (sc_conshdlrs (fst (include_conshdlr sec s2))) name = cfind (sc_conshdlrs s ++ l ++ [sec]) name).
  { intros name. rewrite F, app_assoc, !(find_app _ _ [sec]).
    - subst s2. cbn [sc_conshdlrs create_prob]. now rewrite E2.
    - intros N. unfold create_and_add in E. change (find_conshdlr _ _) with
        (cfind (sc_conshdlrs (fst (include_conshdlr sec s2))) (c_name sec)) in E. rewrite N in E. discriminate. }
  apply create_inv in E. subst s'. cbn [sc_conshdlrs sc_evhdlrs sc_conss sc_rows]. rewrite R1, R2, R3.
  subst s2. cbn [sc_conshdlrs sc_evhdlrs sc_conss sc_rows create_prob app]. split; [exact E1|]. split; [reflexivity|]. split; [reflexivity|].
  exists l. auto.
Qed.

(** A frequency that SCIP does not take, on a SCIP without the handler. *)
Lemma model_frequency defaults o rows s : ~ frequency (po_sepafreq o) -> ~ In "pctsp_sec_handler" (map c_name (sc_conshdlrs s)) ->
  (po_simple o = true \/ Forall in_range defaults /\ NoDup (map c_name defaults) /\ ~ In "pctsp_sec_handler" (map c_name defaults)) ->
  install_model defaults o rows s = UB Uninit.
Proof.
  intros Hf Hi H. unfold install_model. set (sec := sec_conshdlr _ _ _ _). set (s1 := if po_simple o then _ else _).
  assert (H1 : cfind (sc_conshdlrs s1) "pctsp_sec_handler" = None).
  { subst s1. destruct (po_simple o) eqn:Es.
    - assert (R : Forall in_range [linear_conshdlr; integral_conshdlr; knapsack_conshdlr; varbound_conshdlr])
        by (repeat constructor; apply params_in_range; reflexivity).
      destruct (include_fold _ R s) as [_ E2]. rewrite E2, find_app. apply find_none in Hi. unfold find_conshdlr in Hi. now rewrite Hi.
    - destruct H as [H|(Hr & Hn & Hd)]; [discriminate|].
      destruct (include_all_some defaults s Hr Hn) as (l & rest & E1 & E2 & _). rewrite E2. cbn [sc_conshdlrs]. rewrite find_app.
      apply find_none in Hi. unfold find_conshdlr in Hi. rewrite Hi.
      apply (proj2 (find_none (mkScip l [] [] []) "pctsp_sec_handler")). cbn [sc_conshdlrs]. intros X. apply Hd. rewrite E1, map_app, in_app_iff. auto. }
  set (s2 := mkScip _ _ _ _).
  assert (H2 : find_conshdlr s2 (c_name sec) = None) by exact H1.
  assert (P : params_ok sec = false).
  { destruct (params_ok sec) eqn:E; [|reflexivity]. apply params_in_range in E. destruct E as [E _]. contradiction. }
  unfold include_conshdlr. rewrite H2, P. cbn [fst]. unfold create_and_add.
  change (find_conshdlr s2 sec_name) with (find_conshdlr s2 (c_name sec)). now rewrite H2.
Qed.

Lemma install_frequency tb defaults o m heur root dist s : ~ frequency (po_sepafreq o) ->
  ~ In "pctsp_sec_handler" (map c_name (sc_conshdlrs s)) ->
  (po_simple o = true \/ Forall in_range defaults /\ NoDup (map c_name defaults) /\ ~ In "pctsp_sec_handler" (map c_name defaults)) ->
  install tb defaults o m heur root dist s = UB Uninit.
Proof. intros. unfold install. rewrite model_frequency by assumption. reflexivity. Qed.

Notation efind s name := (find_evhdlr s name).

Lemma ev_include_find h s name : efind (fst (include_evhdlr h s)) name =
  match efind s name with Some k => Some k | None => if String.eqb (e_name h) name then Some (e_kind h) else None end.
Proof.
  unfold include_evhdlr. destruct (efind s (e_name h)) as [k|] eqn:E; cbn [fst].
  - destruct (efind s name) eqn:E2; [reflexivity|]. destruct (String.eqb_spec (e_name h) name); congruence.
  - unfold find_evhdlr. cbn [sc_evhdlrs]. rewrite find_app. destruct (find _ (sc_evhdlrs s)); [reflexivity|]. cbn [find].
    now destruct (String.eqb (e_name h) name).
Qed.

Lemma ev_include_rest h s : let s' := fst (include_evhdlr h s) in
  sc_conshdlrs s' = sc_conshdlrs s /\ sc_conss s' = sc_conss s /\ sc_rows s' = sc_rows s.
Proof. unfold include_evhdlr. destruct (efind s (e_name h)); cbn; auto. Qed.

Lemma set_cover_find s n o rows name :
  efind (set_cover s n o rows) name = if String.eqb n name then option_map (fun _ => ECover o) (efind s name) else efind s name.
Proof.
  unfold find_evhdlr, set_cover. cbn [sc_evhdlrs]. induction (sc_evhdlrs s) as [|h l IH]; cbn [map find option_map].
  - now destruct (String.eqb n name).
  - destruct (String.eqb_spec (e_name h) n) as [E|E]; cbn [e_name]; destruct (String.eqb_spec (e_name h) name) as [E2|E2]; cbn [option_map].
    + replace (String.eqb n name) with true by (symmetry; apply String.eqb_eq; congruence). reflexivity.
    + exact IH.
    + destruct (String.eqb_spec n name); [congruence|reflexivity].
    + exact IH.
Qed.

Lemma stays_refl k : stays k k.
Proof. destruct k; cbn; auto. Qed.

Lemma stays_trans a b c : stays a b -> stays b c -> stays a c.
Proof. destruct a, b, c; cbn; intuition congruence. Qed.

(** what one step does to the event handlers *)
Definition ev_step (name : string) (s s' : scip) : Prop :=
  (forall n, n <> name -> efind s' n = efind s n) /\
  (forall k, efind s name = Some k -> exists k', efind s' name = Some k' /\ stays k k') /\ efind s' name <> None.

Lemma include_step h s : ev_step (e_name h) s (fst (include_evhdlr h s)).
Proof.
  split; [|split].
  - intros n Hn. rewrite ev_include_find. destruct (String.eqb_spec (e_name h) n); [congruence|]. now destruct (efind s n).
  - intros k E. rewrite ev_include_find, E. exists k. split; [reflexivity|]. apply stays_refl.
  - rewrite ev_include_find, String.eqb_refl. destruct (efind s (e_name h)); discriminate.
Qed.

Lemma cover_step g m root ub name dist s s' : install_cover g m root ub name dist s = Ok s' ->
  ev_step name s s' /\ sc_conshdlrs s' = sc_conshdlrs s /\ sc_conss s' = sc_conss s /\
  exists r, sc_rows s' = sc_rows s ++ r /\
    if (0 <? ub)%Z
    then exists o, efind s' name = Some (ECover o) /\
           ((exists o0, efind s name = Some (ECover o0) /\ co_dist o = co_dist o0) \/ (efind s name = None /\ co_dist o = dist)) /\
           separate_then_add g m root (co_dist o) ub = Ok (r, co_init o)
    else r = [].
Proof.
  unfold install_cover. set (h := mkEvhdlr name _). pose proof (include_step h s) as (S1 & S2 & S3). pose proof (ev_include_rest h s) as (R1 & R2 & R3).
  set (s1 := fst (include_evhdlr h s)) in *. cbn [e_name h] in S1, S2, S3.
  destruct (0 <? ub)%Z.
  - destruct (efind s1 name) as [[o| |]|] eqn:E; try discriminate. intros H. apply bind_ok in H as ((r, n) & Er & H).
    injection H as <-. cbn [fst snd].
    assert (F : forall nm, efind (set_cover s1 name (mkCoverObj (co_dist o) (co_added o) n) r) nm =
      if String.eqb name nm then Some (ECover (mkCoverObj (co_dist o) (co_added o) n)) else efind s1 nm).
    { intros nm. rewrite set_cover_find. destruct (String.eqb_spec name nm) as [<-|]; [now rewrite E|reflexivity]. }
    split; [split; [|split]|].
    + intros nm Hne. rewrite F. destruct (String.eqb_spec name nm); [congruence|]. auto.
    + intros k Ek. rewrite F, String.eqb_refl. eexists. split; [reflexivity|]. destruct (S2 k Ek) as (k' & E' & Hs).
      injection E' as <-. eapply stays_trans; [exact Hs|]. cbn. auto.
    + rewrite F, String.eqb_refl. discriminate.
    + split; [exact R1|]. split; [exact R2|]. exists r. split; [cbn [set_cover sc_rows]; now rewrite R3|].
      eexists. split; [rewrite F, String.eqb_refl; reflexivity|]. cbn [co_dist co_init]. split; [|exact Er].
      subst s1 h. rewrite ev_include_find in E. cbn [e_name e_kind] in E. rewrite String.eqb_refl in E.
      destruct (efind s name) as [k|] eqn:Es.
      * injection E as ->. left. exists o. auto.
      * injection E as <-. right. auto.
  - intros H. injection H as <-. split; [now split; [|split]|]. split; [exact R1|]. split; [exact R2|]. exists []. rewrite app_nil_r. auto.
Qed.

(** a step that may be left out *)
Definition ev_maybe (on : bool) (name : string) (s s' : scip) : Prop := if on then ev_step name s s' else s' = s.

Record installed (tb : tiebreak) (defaults : list conshdlr) (o : options) (m : ilp) (heur : list nat) (root : nat) (dist : list Z)
    (s s' : scip) : Prop := {
  in_hdlrs : exists l, comes defaults o (sc_conshdlrs s) l /\
    forall name, cfind (sc_conshdlrs s') name = cfind (sc_conshdlrs s ++ l ++ of_this_code o) name;
  in_conss : sc_conss s' = wanted_conss o;
  in_keep : forall name k, efind s name = Some k -> exists k', efind s' name = Some k' /\ stays k k';
  in_names : forall name, efind s' name <> None <-> efind s name <> None \/
    (fl_disjoint_paths (po_flags o) = true /\ name = "Disjoint paths cost cover") \/
    (fl_shortest_path (po_flags o) = true /\ name = "Shortest path cost cover") \/
    name = "pctsp_node_handler" \/ name = "pctsp_bound_handler";
  in_rows : exists ub ds r1 r2, total_cost_edges (i_cost m) heur = Ok ub /\ sc_rows s' = i_cons m ++ r1 ++ r2 /\
    (fl_shortest_path (po_flags o) = true -> shortest_path_distances tb (i_graph m) (i_cost m) (i_cost m) root = Ok ds) /\
    first_rows m root ub s s' (fl_disjoint_paths (po_flags o)) "Disjoint paths cost cover" dist r1 /\
    first_rows m root ub s s' (fl_shortest_path (po_flags o)) "Shortest path cost cover" ds r2 }.

Lemma maybe_other on name s s' n : ev_maybe on name s s' -> n <> name -> efind s' n = efind s n.
Proof. destruct on; cbn; [intros (H & _); auto|intros ->; auto]. Qed.

Lemma maybe_keep on name s s' n k : ev_maybe on name s s' -> efind s n = Some k -> exists k', efind s' n = Some k' /\ stays k k'.
Proof.
  intros H E. destruct (string_dec n name) as [->|Hn].
  - destruct on; cbn in H; [destruct H as (_ & H & _); auto|]. subst s'. exists k. split; [exact E|apply stays_refl].
  - rewrite (maybe_other _ _ _ _ _ H Hn). exists k. split; [exact E|apply stays_refl].
Qed.

Lemma maybe_names on name s s' n : ev_maybe on name s s' -> efind s' n <> None <-> efind s n <> None \/ (on = true /\ n = name).
Proof.
  intros H. destruct (string_dec n name) as [->|Hn].
  - destruct on; cbn in H.
    + destruct H as (_ & _ & H). tauto.
    + subst s'. intuition discriminate.
  - rewrite (maybe_other _ _ _ _ _ H Hn). intuition.
Qed.

Lemma any_install tb defaults o m heur root dist s s' : Forall in_range defaults -> NoDup (map c_name defaults) ->
  install tb defaults o m heur root dist s = Ok s' -> installed tb defaults o m heur root dist s s'.
Proof.
  intros Hr Hn H. unfold install in H. cbn [bind] in H. apply bind_ok in H as (s1 & E1 & H).
  destruct (model_any defaults o (i_cons m) s s1 Hr Hn E1) as (V1 & K1 & R1 & l & Hl & C1). apply bind_ok in H as (ub & Eu & H).
  apply bind_ok in H as (s2 & E2 & H). apply bind_ok in H as (s3 & E3 & H). apply bind_ok in H as (s4 & E4 & H).
  cbn zeta in H. injection H as H.
  assert (W : forall n, efind s1 n = efind s n) by (intros n; unfold find_evhdlr; now rewrite V1).
  assert (A2 : ev_maybe (fl_disjoint_paths (po_flags o)) disjoint_name s1 s2 /\ sc_conshdlrs s2 = sc_conshdlrs s1 /\ sc_conss s2 = sc_conss s1 /\
    exists r, sc_rows s2 = sc_rows s1 ++ r /\
      if (fl_disjoint_paths (po_flags o) && (0 <? ub)%Z)%bool
      then exists oc, efind s2 disjoint_name = Some (ECover oc) /\
           ((exists o0, efind s1 disjoint_name = Some (ECover o0) /\ co_dist oc = co_dist o0) \/ (efind s1 disjoint_name = None /\ co_dist oc = dist)) /\
           separate_then_add (i_graph m) (var_map (i_graph m)) root (co_dist oc) ub = Ok (r, co_init oc)
      else r = []).
  { destruct (fl_disjoint_paths (po_flags o)); cbn [andb ev_maybe].
    - exact (cover_step _ _ _ _ _ _ _ _ E2).
    - injection E2 as <-. split; [reflexivity|]. split; [reflexivity|]. split; [reflexivity|]. exists []. now rewrite app_nil_r. }
  destruct A2 as (M2 & C2 & K2 & r1 & R2 & F2).
  assert (A3 : ev_maybe (fl_shortest_path (po_flags o)) shortest_name s2 s3 /\ sc_conshdlrs s3 = sc_conshdlrs s2 /\ sc_conss s3 = sc_conss s2 /\
    exists ds r, (fl_shortest_path (po_flags o) = true -> shortest_path_distances tb (i_graph m) (i_cost m) (i_cost m) root = Ok ds) /\
      sc_rows s3 = sc_rows s2 ++ r /\
      if (fl_shortest_path (po_flags o) && (0 <? ub)%Z)%bool
      then exists oc, efind s3 shortest_name = Some (ECover oc) /\
           ((exists o0, efind s2 shortest_name = Some (ECover o0) /\ co_dist oc = co_dist o0) \/ (efind s2 shortest_name = None /\ co_dist oc = ds)) /\
           separate_then_add (i_graph m) (var_map (i_graph m)) root (co_dist oc) ub = Ok (r, co_init oc)
      else r = []).
  { destruct (fl_shortest_path (po_flags o)); cbn [andb ev_maybe].
    - apply bind_ok in E3 as (ds & Ed & E3). destruct (cover_step _ _ _ _ _ _ _ _ E3) as (S1 & S2 & S3 & r & S4 & S5).
      split; [exact S1|]. split; [exact S2|]. split; [exact S3|]. exists ds, r. auto.
    - injection E3 as <-. split; [reflexivity|]. split; [reflexivity|]. split; [reflexivity|]. exists [], []. rewrite app_nil_r.
      split; [discriminate|]. auto. }
  destruct A3 as (M3 & C3 & K3 & ds & r2 & Hds & R3 & F3).
  assert (A4 : sc_evhdlrs s4 = sc_evhdlrs s3 /\ sc_rows s4 = sc_rows s3 /\
    sc_conss s4 = sc_conss s3 ++ (if fl_cycle_cover (po_flags o) then [mkCons "cycle_cover_" "Cycle cover" wflags] else []) /\
    forall name, cfind (sc_conshdlrs s4) name =
      cfind (sc_conshdlrs s3 ++ (if fl_cycle_cover (po_flags o) then [cycle_cover_conshdlr] else [])) name).
  { destruct (fl_cycle_cover (po_flags o)).
    - apply create_inv in E4. subst s4. cbn [sc_conshdlrs sc_evhdlrs sc_conss sc_rows].
      destruct (include_rest cycle_cover_conshdlr s3) as (Q1 & Q2 & Q3). rewrite Q1, Q2, Q3. split; [reflexivity|]. split; [reflexivity|].
      split; [reflexivity|]. intros name. apply include_find. exact cycle_cover_in_range.
    - injection E4 as <-. rewrite app_nil_r. split; [reflexivity|]. split; [reflexivity|]. split; [reflexivity|]. intros name. now rewrite app_nil_r. }
  destruct A4 as (V4 & R4 & K4 & C4).
  assert (W4 : forall n, efind s4 n = efind s3 n) by (intros n; unfold find_evhdlr; now rewrite V4).
  set (s5 := fst (include_evhdlr (mkEvhdlr node_name ENode) s4)) in *.
  pose proof (include_step (mkEvhdlr node_name ENode) s4) as M5. fold s5 in M5.
  pose proof (include_step (mkEvhdlr bound_name EBounds) s5) as M6. rewrite H in M6. cbn [e_name] in M5, M6.
  pose proof (ev_include_rest (mkEvhdlr node_name ENode) s4) as (C5 & K5 & R5). fold s5 in C5, K5, R5.
  pose proof (ev_include_rest (mkEvhdlr bound_name EBounds) s5) as (C6 & K6 & R6). rewrite H in C6, K6, R6.
  change (ev_maybe true node_name s4 s5) in M5. change (ev_maybe true bound_name s5 s') in M6.
  split.
  - exists l. split; [exact Hl|]. intros name. rewrite C6, C5, C4, find_app, C3, C2, C1.
    unfold of_this_code. fold (sec_conshdlr (fl_sec_disjoint (po_flags o)) (fl_sec_maxflow (po_flags o)) (po_tailing o) (po_sepafreq o)).
    rewrite !find_app. cbn [find]. destruct (cfind (sc_conshdlrs s) name); [reflexivity|]. destruct (cfind l name); [reflexivity|].
    change (c_name (sec_conshdlr (fl_sec_disjoint (po_flags o)) (fl_sec_maxflow (po_flags o)) (po_tailing o) (po_sepafreq o))) with "pctsp_sec_handler".
    cbn [c_name]. now destruct (String.eqb "pctsp_sec_handler" name).
  - rewrite K6, K5, K4, K3, K2, K1. reflexivity.
  - intros name k E. rewrite <- W in E. destruct (maybe_keep _ _ _ _ _ _ M2 E) as (k2 & E2' & T2).
    destruct (maybe_keep _ _ _ _ _ _ M3 E2') as (k3 & E3' & T3). rewrite <- W4 in E3'.
    destruct (maybe_keep _ _ _ _ _ _ M5 E3') as (k5 & E5' & T5). destruct (maybe_keep _ _ _ _ _ _ M6 E5') as (k6 & E6' & T6).
    exists k6. split; [exact E6'|]. eauto using stays_trans.
  - intros name. rewrite (maybe_names _ _ _ _ _ M6), (maybe_names _ _ _ _ _ M5), W4, (maybe_names _ _ _ _ _ M3), (maybe_names _ _ _ _ _ M2), W.
    unfold node_name, bound_name, disjoint_name, shortest_name. tauto.
  - exists ub, ds, r1, r2. split; [exact Eu|]. split; [rewrite R6, R5, R4, R3, R2, R1; now rewrite <- app_assoc|]. split; [exact Hds|].
    assert (D : forall name given (d : list Z), (exists o0, efind s name = Some (ECover o0) /\ d = co_dist o0) \/ (efind s name = None /\ d = given) ->
      distances_of s name given d).
    { intros name given d [(o0 & E & Ed)|(E & Ed)].
      - left. exists o0. split; [now apply ev_find_named|exact Ed].
      - right. split; [now apply ev_find_none|exact Ed]. }
    split; unfold first_rows.
    + destruct (fl_disjoint_paths (po_flags o) && (0 <? ub)%Z)%bool; [|exact F2]. destruct F2 as (oc & Eo & Do & So). exists oc.
      split; [|split; [|exact So]].
      * apply ev_find_named. rewrite (maybe_other _ _ _ _ _ M6) by discriminate. rewrite (maybe_other _ _ _ _ _ M5) by discriminate.
        rewrite W4, (maybe_other _ _ _ _ _ M3) by discriminate. exact Eo.
      * apply D. rewrite W in Do. exact Do.
    + destruct (fl_shortest_path (po_flags o) && (0 <? ub)%Z)%bool; [|exact F3]. destruct F3 as (oc & Eo & Do & So). exists oc.
      split; [|split; [|exact So]].
      * apply ev_find_named. rewrite (maybe_other _ _ _ _ _ M6) by discriminate. rewrite (maybe_other _ _ _ _ _ M5) by discriminate.
        rewrite W4. exact Eo.
      * apply D. rewrite (maybe_other _ _ _ _ _ M2) in Do by discriminate. rewrite W in Do. exact Do.
Qed.

(** ** events *)
Lemma catches_wants k oc : catches k oc = true <-> wants k oc.
Proof.
  split; [destruct k, oc; cbn; try discriminate; intros _; constructor|].
  destruct 1; reflexivity.
Qed.

Lemma bind_assoc {A B C} (r : res A) (f : A -> res B) (k : B -> res C) : bind (bind r f) k = bind r (fun a => bind (f a) k).
Proof. now destruct r. Qed.

Lemma Forall2_weak {A B} (P Q : A -> B -> Prop) l l' : (forall a b, P a b -> Q a b) -> Forall2 P l l' -> Forall2 Q l l'.
Proof. intros H. induction 1; constructor; auto. Qed.

Section Events.
Variables (g : graph) (m : nat -> option nat) (root : nat).

(** one event at one handler *)
Definition ev_one (oc : occurrence) (h : evhdlr) : res (evhdlr * list lin) :=
  match e_kind h, oc with
  | ECover o, BestSol n d =>
      do c <- cover_exec g m root (mkCover (co_dist o) (co_added o) (co_init o) []) (n, d);
      Ok (mkEvhdlr (e_name h) (ECover (mkCoverObj (ch_dist c) (ch_added c) (ch_init c))), ch_rows c)
  | _, _ => Ok (h, [])
  end.

Lemma ev_one_name oc h x : ev_one oc h = Ok x -> e_name (fst x) = e_name h /\ forall o', catches (e_kind (fst x)) o' = catches (e_kind h) o'.
Proof.
  unfold ev_one. destruct (e_kind h) as [o| |] eqn:Ek; [destruct oc|..]; try (intros [= <-]; cbn [fst]; now rewrite Ek).
  intros H. apply bind_ok in H as (c & _ & [= <-]). cbn. split; [reflexivity|]. intros []; reflexivity.
Qed.

Definition tell (oc : occurrence) (hs : list evhdlr) : list (string * occurrence) :=
  map (fun h => (e_name h, oc)) (filter (fun h => catches (e_kind h) oc) hs).

Lemma set_cover_mid cs hs1 h hs2 ks rows o new : ~ In (e_name h) (map e_name hs1) -> ~ In (e_name h) (map e_name hs2) ->
  set_cover (mkScip cs (hs1 ++ h :: hs2) ks rows) (e_name h) o new =
  mkScip cs (hs1 ++ mkEvhdlr (e_name h) (ECover o) :: hs2) ks (rows ++ new).
Proof.
  intros H1 H2. unfold set_cover. cbn [sc_conshdlrs sc_evhdlrs sc_conss sc_rows]. f_equal.
  assert (F : forall l, ~ In (e_name h) (map e_name l) ->
    map (fun h0 => if String.eqb (e_name h0) (e_name h) then mkEvhdlr (e_name h0) (ECover o) else h0) l = l).
  { induction l as [|x l IH]; intros H; [reflexivity|]. cbn [map In] in *. destruct (String.eqb_spec (e_name x) (e_name h)) as [E|E].
    - exfalso. auto.
    - f_equal. auto. }
  rewrite map_app. cbn [map]. rewrite String.eqb_refl, !F; auto.
Qed.

Lemma find_mid cs hs1 h hs2 ks rows : ~ In (e_name h) (map e_name hs1) ->
  efind (mkScip cs (hs1 ++ h :: hs2) ks rows) (e_name h) = Some (e_kind h).
Proof. intros H. apply ev_find_named. exists hs1, hs2. cbn [sc_evhdlrs]. split; [now destruct h|exact H]. Qed.

Lemma exec_all oc cs ks subs hs2 : forall hs1 rows log, NoDup (map e_name (hs1 ++ hs2)) ->
  foldM (exec g m root oc) (map e_name hs2) (mkLive (mkScip cs (hs1 ++ hs2) ks rows) subs log) =
  do l <- mapM (ev_one oc) hs2;
  Ok (mkLive (mkScip cs (hs1 ++ map fst l) ks (rows ++ concat (map snd l))) subs (log ++ tell oc hs2)).
Proof.
  induction hs2 as [|h hs2 IH]; intros hs1 rows log Hn.
  - cbn. now rewrite !app_nil_r.
  - assert (N : ~ In (e_name h) (map e_name hs1) /\ ~ In (e_name h) (map e_name hs2)).
    { rewrite map_app in Hn. cbn [map] in Hn. apply NoDup_remove_2 in Hn. rewrite in_app_iff in Hn. tauto. }
    destruct N as [N1 N2]. cbn [map foldM mapM]. unfold exec at 1. cbn [lv_scip lv_subs lv_log]. rewrite find_mid by exact N1.
    assert (G : forall h' new log', e_name h' = e_name h ->
      foldM (exec g m root oc) (map e_name hs2) (mkLive (mkScip cs (hs1 ++ h' :: hs2) ks (rows ++ new)) subs log') =
      do l <- mapM (ev_one oc) hs2;
      Ok (mkLive (mkScip cs (hs1 ++ h' :: map fst l) ks (rows ++ new ++ concat (map snd l))) subs (log' ++ tell oc hs2))).
    { intros h' new log' E. replace (hs1 ++ h' :: hs2) with ((hs1 ++ [h']) ++ hs2) by now rewrite <- app_assoc.
      rewrite IH.
      - destruct (mapM (ev_one oc) hs2); cbn [bind]; try reflexivity. now rewrite <- !app_assoc.
      - rewrite !map_app in *. cbn [map] in *. rewrite <- app_assoc. cbn [app]. now rewrite E. }
    unfold ev_one at 1. destruct (e_kind h) as [o| |] eqn:Ek.
    + destruct oc as [| | | | | | |n d]; cbn [catches]; cbn [bind];
        try (specialize (G h [] log eq_refl); rewrite app_nil_r in G; rewrite G; unfold tell; cbn [filter]; rewrite Ek; cbn [catches];
             destruct (mapM _ hs2); cbn [bind map fst snd concat app]; reflexivity).
      unfold cover_exec. cbn [fst snd ch_dist ch_added ch_init ch_rows]. destruct (cast_int n d) as [ub| | |]; cbn [bind]; try reflexivity.
      destruct (separate_then_add g m root (co_dist o) ub) as [r| | |]; cbn [bind]; try reflexivity.
      rewrite set_cover_mid by auto. cbn [ch_dist ch_added ch_init ch_rows app]. rewrite G by reflexivity.
      unfold tell. cbn [filter]. rewrite Ek. cbn [catches]. destruct (mapM _ hs2); cbn [bind map fst snd concat]; try reflexivity.
      now rewrite <- !app_assoc.
    + destruct oc; cbn [catches bind];
        (match goal with |- context [log ++ [?x]] => specialize (G h [] (log ++ [x]) eq_refl) | _ => specialize (G h [] log eq_refl) end);
        rewrite app_nil_r in G; rewrite G; unfold tell; cbn [filter]; rewrite Ek; cbn [catches];
        destruct (mapM _ hs2); cbn [bind map fst snd concat app]; try reflexivity; now rewrite <- !app_assoc.
    + destruct oc; cbn [catches bind];
        (match goal with |- context [log ++ [?x]] => specialize (G h [] (log ++ [x]) eq_refl) | _ => specialize (G h [] log eq_refl) end);
        rewrite app_nil_r in G; rewrite G; unfold tell; cbn [filter]; rewrite Ek; cbn [catches];
        destruct (mapM _ hs2); cbn [bind map fst snd concat app]; try reflexivity; now rewrite <- !app_assoc.
Qed.

(** the handlers and the rows after a list of upper bounds *)
Definition reach (nds : list (Z * Z)) (hs : list evhdlr) (hs' : list evhdlr) (rows : list lin) : Prop :=
  exists l, Forall2 (fun h x => did g m root nds h (fst x) (snd x)) hs l /\ hs' = map fst l /\ Permutation rows (concat (map snd l)).

Lemma cover_exec_frame nds : forall c c' rows, foldM (cover_exec g m root) nds c = Ok c' ->
  foldM (cover_exec g m root) nds (mkCover (ch_dist c) (ch_added c) (ch_init c) (rows ++ ch_rows c)) =
    Ok (mkCover (ch_dist c') (ch_added c') (ch_init c') (rows ++ ch_rows c')).
Proof.
  induction nds as [|nd nds IH]; intros c c' rows H; cbn [foldM] in *.
  - injection H as <-. reflexivity.
  - apply bind_ok in H as (c1 & E & H). unfold cover_exec in E |- *. cbn [ch_dist ch_added ch_init ch_rows].
    apply bind_ok in E as (ub & E1 & E). apply bind_ok in E as (r & E2 & [= <-]). rewrite E1. cbn [bind]. rewrite E2. cbn [bind].
    apply (IH _ _ rows) in H. cbn [ch_dist ch_added ch_init ch_rows] in H. rewrite <- app_assoc. exact H.
Qed.

Lemma did_app nds1 nds2 h h1 h2 r1 r2 : did g m root nds1 h h1 r1 -> did g m root nds2 h1 h2 r2 -> did g m root (nds1 ++ nds2) h h2 (r1 ++ r2).
Proof.
  intros H1 H2. destruct H1 as [name o c1 E1|name|name]; inversion H2 as [name2 o2 c2 E2|name2|name2]; subst; [|constructor|constructor].
  cbn [co_dist co_added co_init] in *.
  apply (cover_exec_frame _ _ _ (ch_rows c1)) in E2. cbn [ch_dist ch_added ch_init ch_rows] in E2. rewrite app_nil_r in E2.
  change (ch_rows c1 ++ ch_rows c2) with (ch_rows (mkCover (ch_dist c2) (ch_added c2) (ch_init c2) (ch_rows c1 ++ ch_rows c2))).
  replace (ch_dist c2) with (ch_dist (mkCover (ch_dist c2) (ch_added c2) (ch_init c2) (ch_rows c1 ++ ch_rows c2))) at 1 by reflexivity.
  apply (did_cover g m root (nds1 ++ nds2) name o (mkCover (ch_dist c2) (ch_added c2) (ch_init c2) (ch_rows c1 ++ ch_rows c2))).
  rewrite foldM_app, E1. cbn [bind]. destruct c1. exact E2.
Qed.

Lemma did_nil h : did g m root [] h h [].
Proof.
  destruct h as [name [o| |]]; [|constructor|constructor].
  pose proof (did_cover g m root [] name o (mkCover (co_dist o) (co_added o) (co_init o) []) eq_refl) as H. cbn in H. now destruct o.
Qed.

Lemma ev_one_did oc h x : ev_one oc h = Ok x <-> did g m root (bounds_of [oc]) h (fst x) (snd x).
Proof.
  unfold ev_one. destruct h as [name [o| |]]; cbn [e_kind e_name].
  - destruct oc as [| | | | | | |n d]; cbn [bounds_of flat_map app];
      try (split; [intros [= <-]; apply did_nil|];
           intros H; inversion H as [nm oo c E|nm|nm]; subst; cbn in E; injection E as <-; destruct x; cbn in *; subst; now destruct o).
    split.
    + intros H. apply bind_ok in H as (c & E & [= <-]). cbn [fst snd]. constructor. cbn [foldM]. now rewrite E.
    + intros H. inversion H as [nm oo c E|nm|nm]; subst. cbn [foldM] in E. apply bind_ok in E as (c1 & E & [= ->]). rewrite E. cbn [bind].
      destruct x; cbn in *; congruence.
  - split; [intros [= <-]; constructor|]. intros H. inversion H; subst. destruct x; cbn in *; congruence.
  - split; [intros [= <-]; constructor|]. intros H. inversion H; subst. destruct x; cbn in *; congruence.
Qed.

Lemma mapM_forall2 {A B} (f : A -> res B) l l' : mapM f l = Ok l' <-> Forall2 (fun a b => f a = Ok b) l l'.
Proof.
  revert l'. induction l as [|a l IH]; intros l'; cbn [mapM].
  - split; [intros [= <-]; constructor|]. intros H. inversion H. reflexivity.
  - split.
    + intros H. apply bind_ok in H as (b & E & H). apply bind_ok in H as (bs & E2 & [= <-]). constructor; [exact E|]. now apply IH.
    + intros H. inversion H as [|? b ? bs E F]; subst. rewrite E. cbn [bind]. apply IH in F. rewrite F. reflexivity.
Qed.

Lemma reach_nil hs : reach [] hs hs [].
Proof.
  exists (map (fun h => (h, [])) hs). split; [|split].
  - induction hs; cbn [map]; constructor; auto. apply did_nil.
  - rewrite map_map. cbn. now rewrite map_id.
  - induction hs; cbn; auto.
Qed.

Lemma concat_pairs {A} : forall l1 l2 : list (list A), List.length l1 = List.length l2 ->
  Permutation (concat l1 ++ concat l2) (concat (map (fun ab => fst ab ++ snd ab) (combine l1 l2))).
Proof.
  induction l1 as [|a l1 IH]; intros [|b l2] H; try discriminate; [reflexivity|]. cbn [combine map concat fst snd].
  injection H as H. rewrite <- (IH l2 H), <- !app_assoc. apply Permutation_app_head. rewrite !app_assoc. apply Permutation_app_tail.
  apply Permutation_app_comm.
Qed.

Lemma reach_app nds1 nds2 hs hs1 hs2 r1 r2 : reach nds1 hs hs1 r1 -> reach nds2 hs1 hs2 r2 -> reach (nds1 ++ nds2) hs hs2 (r1 ++ r2).
Proof.
  intros (l1 & F1 & -> & P1) (l2 & F2 & -> & P2).
  exists (map (fun ab => (fst (snd ab), snd (fst ab) ++ snd (snd ab))) (combine l1 l2)).
  assert (L : List.length l1 = List.length l2) by (apply Forall2_length_eq in F2; rewrite map_length in F2; exact F2).
  split; [|split].
  - clear P1 P2 r1 r2. revert l2 F2 L. induction F1 as [|h x hs l1 Hx _ IH]; intros l2 F2 L; cbn [map] in F2.
    + inversion F2. constructor.
    + inversion F2 as [|? y ? l2' Hy F2']; subst. cbn [combine map fst snd]. constructor.
      * cbn [fst snd]. eapply did_app; eauto.
      * apply IH; auto.
  - clear - L. revert l2 L. induction l1 as [|x l1 IH]; intros [|y l2] L; try discriminate; [reflexivity|]. cbn [combine map fst snd].
    f_equal. apply IH. now injection L.
  - rewrite P1, P2, concat_pairs by (now rewrite !map_length). rewrite !map_map. cbn [snd].
    clear - L. revert l2 L. induction l1 as [|x l1 IH]; intros [|y l2] L; try discriminate; [reflexivity|]. cbn [combine map fst snd concat].
    apply Permutation_app_head. apply IH. now injection L.
Qed.

Lemma reach_names nds hs hs' rows : reach nds hs hs' rows -> map e_name hs' = map e_name hs.
Proof.
  intros (l & F & -> & _). induction F as [|h x hs l H _ IH]; [reflexivity|]. cbn [map]. f_equal; [|exact IH]. destruct H; reflexivity.
Qed.

Lemma reach_tell nds hs hs' rows oc : reach nds hs hs' rows -> tell oc hs' = tell oc hs.
Proof.
  intros (l & F & -> & _). unfold tell. induction F as [|h x hs l H _ IH]; [reflexivity|]. cbn [map filter].
  assert (E : e_name (fst x) = e_name h /\ catches (e_kind (fst x)) oc = catches (e_kind h) oc) by (destruct H; cbn; auto; destruct oc; auto).
  destruct E as [E1 E2]. rewrite E2. destruct (catches (e_kind h) oc); cbn [map]; [f_equal; [now rewrite E1|]|]; exact IH.
Qed.

(** the log of a list of events *)
Definition tells (hs : list evhdlr) (ocs : list occurrence) := flat_map (fun oc => tell oc hs) ocs.

Lemma run_app lv phs1 phs2 : run_phases g m root lv (phs1 ++ phs2) =
  do '(lv1, c) <- run_phases g m root lv phs1;
  match c with Okay => run_phases g m root lv1 phs2 | InvalidData => Ok (lv1, InvalidData) end.
Proof.
  revert lv. induction phs1 as [|ph phs1 IH]; intros lv; cbn [app run_phases]; [reflexivity|].
  destruct (step g m root lv ph) as [[lv1 []]| | |]; cbn [bind]; auto.
Qed.

Lemma bounds_app a b : bounds_of (a ++ b) = bounds_of a ++ bounds_of b.
Proof. apply flat_map_app. Qed.

Lemma run_events ocs : forall cs hs ks rows log lv c, NoDup (map e_name hs) ->
  run_phases g m root (mkLive (mkScip cs hs ks rows) (map e_name hs) log) (map Occurs ocs) = Ok (lv, c) ->
  c = Okay /\ exists hs' new, lv = mkLive (mkScip cs hs' ks (rows ++ new)) (map e_name hs) (log ++ tells hs ocs) /\ reach (bounds_of ocs) hs hs' new.
Proof.
  induction ocs as [|oc ocs IH]; intros cs hs ks rows log lv c Hn H; cbn [map run_phases] in H.
  - injection H as <- <-. split; [reflexivity|]. exists hs, []. cbn [tells flat_map]. rewrite !app_nil_r. split; [reflexivity|]. apply reach_nil.
  - cbn [step lv_subs] in H. rewrite (exec_all oc cs ks (map e_name hs) hs []) in H by exact Hn. rewrite bind_assoc in H.
    apply bind_ok in H as (lv1 & El & H). apply bind_ok in El as (l & El & [= <-]). cbn [bind app] in H.
    assert (R : reach (bounds_of [oc]) hs (map fst l) (concat (map snd l))).
    { exists l. split; [|auto]. apply mapM_forall2 in El. eapply Forall2_weak; [|exact El]. intros a b. apply ev_one_did. }
    pose proof (reach_names _ _ _ _ R) as En. rewrite <- En in H at 1. apply IH in H; [|now rewrite En].
    destruct H as (-> & hs' & new & -> & R2). split; [reflexivity|]. exists hs', (concat (map snd l) ++ new). split.
    + rewrite En, <- !app_assoc. f_equal. f_equal. cbn [tells flat_map]. f_equal. unfold tells. apply flat_map_ext. intros oc'.
      apply (reach_tell _ _ _ _ oc' R).
    + change (oc :: ocs) with ([oc] ++ ocs). rewrite bounds_app. eapply reach_app; eauto.
Qed.

Lemma drop_all hs : forall hs', map e_name hs' = map e_name hs ->
  fold_left (fun o h => match o with Some l => drop_event (e_name h) l | None => None end) hs' (Some (map e_name hs)) = Some [].
Proof.
  induction hs as [|h hs IH]; intros [|h' hs'] E; try discriminate; [reflexivity|]. cbn [map fold_left drop_event] in *.
  injection E as E1 E2. rewrite E1, String.eqb_refl. apply IH. exact E2.
Qed.

Lemma run_blocks bs : forall cs hs ks rows log lv c, NoDup (map e_name hs) ->
  run_phases g m root (mkLive (mkScip cs hs ks rows) [] log) (phases_of bs) = Ok (lv, c) ->
  c = Okay /\ exists hs' new, lv = mkLive (mkScip cs hs' ks (rows ++ new)) [] (log ++ tells hs (inside bs)) /\ reach (bounds_of (inside bs)) hs hs' new.
Proof.
  induction bs as [|b bs IH]; intros cs hs ks rows log lv c Hn H.
  - cbn in H. injection H as <- <-. split; [reflexivity|]. exists hs, []. cbn [inside tells flat_map]. rewrite !app_nil_r. split; [reflexivity|]. apply reach_nil.
  - destruct b as [ocs|oc].
    + change (phases_of (Solve ocs :: bs)) with (InitSol :: (map Occurs ocs ++ [ExitSol]) ++ phases_of bs) in H.
      change (inside (Solve ocs :: bs)) with (ocs ++ inside bs).
      cbn [run_phases] in H. cbn [step lv_scip lv_subs lv_log sc_evhdlrs bind app] in H. rewrite <- app_assoc, run_app in H.
      apply bind_ok in H as ((lv1 & c1) & E1 & H). apply run_events in E1; [|exact Hn].
      destruct E1 as (-> & hs1 & new1 & -> & R1). cbn [app run_phases step lv_scip lv_subs lv_log sc_evhdlrs bind] in H.
      pose proof (reach_names _ _ _ _ R1) as En. rewrite drop_all in H by exact En. cbn [bind] in H.
      apply IH in H; [|now rewrite En]. destruct H as (-> & hs2 & new2 & -> & R2). split; [reflexivity|].
      exists hs2, (new1 ++ new2). split.
      * rewrite <- !app_assoc. f_equal. f_equal. unfold tells. rewrite flat_map_app. f_equal. apply flat_map_ext. intros oc'. apply (reach_tell _ _ _ _ oc' R1).
      * rewrite bounds_app. eapply reach_app; eauto.
    + change (phases_of (Between oc :: bs)) with (Occurs oc :: phases_of bs) in H. change (inside (Between oc :: bs)) with (inside bs).
      cbn [run_phases step lv_subs foldM bind] in H. exact (IH _ _ _ _ _ _ _ Hn H).
Qed.

(** what a handler hears *)
Lemma heard_app name l1 l2 : heard name (l1 ++ l2) = heard name l1 ++ heard name l2.
Proof. unfold heard. now rewrite filter_app, map_app. Qed.

Lemma heard_tell name oc hs : ~ In name (map e_name hs) -> heard name (tell oc hs) = [].
Proof.
  unfold heard, tell. induction hs as [|h hs IH]; intros H; [reflexivity|]. cbn [map In filter] in *.
  destruct (catches (e_kind h) oc); cbn [map filter fst]; [|auto].
  destruct (String.eqb_spec (e_name h) name) as [E|E]; [exfalso; auto|]. auto.
Qed.

Lemma heard_picks name k hs ocs : NoDup (map e_name hs) -> ev_named hs name k -> picked (wants k) ocs (heard name (tells hs ocs)).
Proof.
  intros Hn (l1 & l2 & -> & Hi).
  assert (Hi2 : ~ In name (map e_name l2)).
  { rewrite map_app in Hn. cbn [map e_name] in Hn. apply NoDup_remove_2 in Hn. rewrite in_app_iff in Hn. tauto. }
  induction ocs as [|oc ocs IH]; [constructor|]. cbn [tells flat_map]. fold (tells (l1 ++ mkEvhdlr name k :: l2) ocs). rewrite heard_app.
  assert (E : heard name (tell oc (l1 ++ mkEvhdlr name k :: l2)) = if catches k oc then [oc] else []).
  { unfold tell. rewrite filter_app, map_app, heard_app. fold (tell oc l1). rewrite heard_tell by exact Hi. cbn [app filter e_kind].
    destruct (catches k oc); cbn [map].
    - change ((e_name (mkEvhdlr name k), oc) :: ?x) with ([(name, oc)] ++ x). rewrite heard_app. fold (tell oc l2). rewrite heard_tell by exact Hi2.
      unfold heard. cbn [filter fst map snd]. now rewrite String.eqb_refl.
    - fold (tell oc l2). now apply heard_tell. }
  rewrite E. destruct (catches k oc) eqn:Ec; cbn [app].
  - apply picked_yes; [now apply catches_wants|exact IH].
  - apply picked_no; [|exact IH]. intros H. apply catches_wants in H. congruence.
Qed.

Lemma tells_known name oc hs ocs : In (name, oc) (tells hs ocs) -> In name (map e_name hs).
Proof.
  unfold tells, tell. intros H. apply in_flat_map in H as (oc' & _ & H). apply in_map_iff in H as (h & E & H). injection E as <- <-.
  apply filter_In in H as [H _]. now apply in_map.
Qed.

Lemma events_run s bs lv c : NoDup (map e_name (sc_evhdlrs s)) ->
  run_phases g m root (mkLive s [] []) (phases_of bs) = Ok (lv, c) ->
  c = Okay /\ lv_subs lv = [] /\ sc_conshdlrs (lv_scip lv) = sc_conshdlrs s /\ sc_conss (lv_scip lv) = sc_conss s /\
  (forall name k, ev_named (sc_evhdlrs s) name k -> picked (wants k) (inside bs) (heard name (lv_log lv))) /\
  (forall name oc, In (name, oc) (lv_log lv) -> In name (map e_name (sc_evhdlrs s))) /\
  exists l new, Forall2 (fun h x => did g m root (bounds_of (inside bs)) h (fst x) (snd x)) (sc_evhdlrs s) l /\
    sc_evhdlrs (lv_scip lv) = map fst l /\ sc_rows (lv_scip lv) = sc_rows s ++ new /\ Permutation new (concat (map snd l)).
Proof.
  intros Hn H. destruct s as [cs hs ks rows]. cbn [sc_conshdlrs sc_evhdlrs sc_conss sc_rows] in *. apply run_blocks in H; [|exact Hn].
  destruct H as (-> & hs' & new & -> & l & F & -> & P). cbn [lv_subs lv_scip lv_log sc_conshdlrs sc_evhdlrs sc_conss sc_rows app].
  split; [reflexivity|]. split; [reflexivity|]. split; [reflexivity|]. split; [reflexivity|]. split.
  { intros name k Hk. now apply heard_picks. }
  split; [intros name oc; apply tells_known|]. exists l, new. auto.
Qed.

(** progress *)
Lemma foldM_prefix nds1 nds2 c c' : foldM (cover_exec g m root) (nds1 ++ nds2) c = Ok c' -> exists c1, foldM (cover_exec g m root) nds1 c = Ok c1.
Proof. rewrite foldM_app. intros H. apply bind_ok in H as (c1 & E & _). eauto. Qed.

Definition able (nds : list (Z * Z)) (h : evhdlr) : Prop := exists h' r, did g m root nds h h' r.

Lemma rows_irrelevant nds : forall d a i r0 r c, foldM (cover_exec g m root) nds (mkCover d a i r) = Ok c ->
  exists c2, foldM (cover_exec g m root) nds (mkCover d a i r0) = Ok c2.
Proof.
  induction nds as [|nd nds IH]; intros d a i r0 r c E2; cbn [foldM] in *; [eauto|].
  apply bind_ok in E2 as (c1 & E & E2). unfold cover_exec in E |- *. cbn [ch_dist ch_added ch_init ch_rows] in *.
  apply bind_ok in E as (ub & Ea & E). apply bind_ok in E as (q & Eb & [= <-]). rewrite Ea. cbn [bind]. rewrite Eb. cbn [bind].
  cbn [ch_dist ch_added ch_init ch_rows]. eapply IH. exact E2.
Qed.

Lemma able_app nds1 nds2 h : able (nds1 ++ nds2) h -> exists h1 r1, did g m root nds1 h h1 r1 /\ able nds2 h1.
Proof.
  intros (h' & r & H). destruct H as [name o c E|name|name].
  - rewrite foldM_app in E. apply bind_ok in E as (c1 & E1 & E2). eexists. eexists. split; [constructor; exact E1|].
    assert (F : exists c2, foldM (cover_exec g m root) nds2 (mkCover (ch_dist c1) (ch_added c1) (ch_init c1) []) = Ok c2).
    { destruct c1 as [d a i r]. exact (rows_irrelevant nds2 d a i [] r c E2). }
    destruct F as (c2 & F). eexists. eexists. constructor. exact F.
  - eexists. eexists. split; [constructor|]. eexists. eexists. constructor.
  - eexists. eexists. split; [constructor|]. eexists. eexists. constructor.
Qed.

Lemma able_all nds1 nds2 hs : Forall (able (nds1 ++ nds2)) hs ->
  exists l, Forall2 (fun h x => did g m root nds1 h (fst x) (snd x)) hs l /\ Forall (able nds2) (map fst l).
Proof.
  induction 1 as [|h hs H _ (l & F & A)].
  - exists []. split; constructor.
  - apply able_app in H as (h1 & r1 & Hd & Ha). exists ((h1, r1) :: l). split; [constructor; auto|]. cbn [map fst]. constructor; auto.
Qed.

Lemma events_progress ocs : forall nds cs hs ks rows log, NoDup (map e_name hs) -> Forall (able (bounds_of ocs ++ nds)) hs ->
  exists hs' new, run_phases g m root (mkLive (mkScip cs hs ks rows) (map e_name hs) log) (map Occurs ocs) =
    Ok (mkLive (mkScip cs hs' ks (rows ++ new)) (map e_name hs) (log ++ tells hs ocs), Okay) /\ map e_name hs' = map e_name hs /\
    Forall (able nds) hs'.
Proof.
  induction ocs as [|oc ocs IH]; intros nds cs hs ks rows log Hn Ha; cbn [map run_phases].
  - exists hs, []. cbn [tells flat_map]. rewrite !app_nil_r. cbn [bounds_of flat_map app] in Ha. auto.
  - change (oc :: ocs) with ([oc] ++ ocs) in Ha. rewrite bounds_app, <- app_assoc in Ha. apply able_all in Ha as (l & F & Ha).
    cbn [step lv_subs]. rewrite (exec_all oc cs ks (map e_name hs) hs []) by exact Hn.
    assert (El : mapM (ev_one oc) hs = Ok l).
    { apply mapM_forall2. eapply Forall2_weak; [|exact F]. intros a b. apply ev_one_did. }
    rewrite El. cbn [bind app].
    assert (R : reach (bounds_of [oc]) hs (map fst l) (concat (map snd l))) by (exists l; auto).
    pose proof (reach_names _ _ _ _ R) as En.
    destruct (IH nds cs (map fst l) ks (rows ++ concat (map snd l)) (log ++ tell oc hs)) as (hs' & new & E & En' & Ha'); [now rewrite En|exact Ha|].
    rewrite En in E. exists hs', (concat (map snd l) ++ new). rewrite E. split; [|split; [congruence|exact Ha']].
    rewrite <- !app_assoc. do 4 f_equal. cbn [tells flat_map]. f_equal. unfold tells. apply flat_map_ext. intros oc'. apply (reach_tell _ _ _ _ oc' R).
Qed.

Lemma blocks_progress bs : forall cs hs ks rows log, NoDup (map e_name hs) -> Forall (able (bounds_of (inside bs))) hs ->
  exists lv, run_phases g m root (mkLive (mkScip cs hs ks rows) [] log) (phases_of bs) = Ok (lv, Okay).
Proof.
  induction bs as [|b bs IH]; intros cs hs ks rows log Hn Ha; [cbn; eauto|]. destruct b as [ocs|oc].
  - change (phases_of (Solve ocs :: bs)) with (InitSol :: (map Occurs ocs ++ [ExitSol]) ++ phases_of bs).
    change (inside (Solve ocs :: bs)) with (ocs ++ inside bs) in Ha. rewrite bounds_app in Ha.
    cbn [run_phases]. cbn [step lv_scip lv_subs lv_log sc_evhdlrs bind app]. rewrite <- app_assoc, run_app.
    destruct (events_progress ocs _ cs hs ks rows log Hn Ha) as (hs' & new & E & En & Ha'). rewrite E. cbn [bind].
    cbn [app run_phases step lv_scip lv_subs lv_log sc_evhdlrs bind]. rewrite drop_all by exact En. cbn [bind]. apply IH; [now rewrite En|exact Ha'].
  - change (phases_of (Between oc :: bs)) with (Occurs oc :: phases_of bs). cbn [run_phases step lv_subs foldM bind]. apply IH; assumption.
Qed.
End Events.
