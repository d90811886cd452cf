(** * P_Plugins3: the lemmas of P_Plugins and P_Plugins2 in the words of Spec_Plugins *)
From Coq Require Import String Permutation Sorting.Sorted.
From Verif Require Import Base Graph Spec Spec_Cycle M_Walk M_Graph M_Dijkstra M_Solution M_ILP M_Subtour M_CycleCover M_CostCover
  M_MaxFlow M_Handler M_Solve M_Plugins Spec_ILP Spec_Handler Spec_Solve Spec_Plugins.
From Verif Require Import P_Base P_ILP P_Model P_Handler P_Plugins P_Plugins2.
Open Scope string_scope.
Open Scope list_scope.
Open Scope nat_scope.

Lemma wanted_distinct defaults o m b : (po_simple o = true \/ good_defaults defaults) ->
  NoDup (map c_name (sc_conshdlrs (wanted defaults o m b))) /\ NoDup (map e_name (sc_evhdlrs (wanted defaults o m b))).
Proof.
  intros H. cbn [sc_conshdlrs sc_evhdlrs wanted]. split.
  - unfold wanted_conshdlrs, of_scip. destruct (po_simple o).
    + unfold of_this_code. destruct (fl_cycle_cover (po_flags o)); cbn [map app c_name]; repeat (apply NoDup_cons; [cbn [In]; intuition discriminate|]); constructor.
    + destruct H as [H|(_ & H1 & H2 & H3)]; [discriminate|]. rewrite map_app. unfold of_this_code.
      assert (H2' : NoDup (map c_name defaults ++ ["pctsp_sec_handler"])).
      { apply NoDup_rev in H1. rewrite <- (rev_involutive (_ ++ _)). apply NoDup_rev. rewrite rev_app_distr. cbn. constructor; [|exact H1]. now rewrite <- in_rev. }
      destruct (fl_cycle_cover (po_flags o)); cbn [map c_name]; [|exact H2'].
      change (["pctsp_sec_handler"; "Cycle cover"]) with (["pctsp_sec_handler"] ++ ["Cycle cover"]). rewrite app_assoc.
      apply NoDup_rev in H2'. rewrite <- (rev_involutive (_ ++ ["Cycle cover"])). apply NoDup_rev. rewrite rev_app_distr.
      change (rev ["Cycle cover"]) with ["Cycle cover"]. cbn [app]. constructor; [|exact H2'].
      rewrite <- in_rev, in_app_iff. cbn [In]. intuition discriminate.
  - destruct (b_dp b), (b_sp b); cbn [cover_handler map app e_name]; repeat (apply NoDup_cons; [cbn [In]; intuition discriminate|]); constructor.
Qed.

Lemma trans_flags k : List.length (k_flags k) = 10 -> trans_cons k = Ok k.
Proof.
  destruct k as [n h f]. cbn [k_flags]. intro H.
  do 10 (destruct f as [|? f]; [discriminate H|]). destruct f; [reflexivity|discriminate H].
Qed.

Lemma trans_same o k : In k (wanted_conss o) -> trans_cons k = Ok k.
Proof.
  unfold wanted_conss. intros [<-|H]; [reflexivity|]. destruct (fl_cycle_cover (po_flags o)); [|destruct H]. destruct H as [<-|[]]. reflexivity.
Qed.

Lemma again_handlers tb defaults o m heur root dist s s' : Forall in_range defaults -> NoDup (map c_name defaults) ->
  install tb defaults o m heur root dist s = Ok s' ->
  exists l, comes defaults o (sc_conshdlrs s) l /\
    forall name h, named (sc_conshdlrs s') name h <-> named (sc_conshdlrs s ++ l ++ of_this_code o) name h.
Proof.
  intros Hr Hn H. destruct (in_hdlrs _ _ _ _ _ _ _ _ _ (any_install _ _ _ _ _ _ _ _ _ Hr Hn H)) as (l & Hl & E). exists l. split; [exact Hl|].
  intros name h. rewrite <- !find_named. now rewrite E.
Qed.

Lemma ev_known s name : find_evhdlr s name <> None <-> In name (map e_name (sc_evhdlrs s)).
Proof.
  pose proof (ev_find_none s name) as H. destruct (find_evhdlr s name) as [k|] eqn:E.
  - split; [intros _|discriminate]. apply ev_find_named in E as (l1 & l2 & -> & _). rewrite map_app. apply in_or_app. right. now left.
  - split; [congruence|]. intros Hi _. now apply H.
Qed.

Lemma again_events tb defaults o m heur root dist s s' : Forall in_range defaults -> NoDup (map c_name defaults) ->
  install tb defaults o m heur root dist s = Ok s' ->
  (forall name k, ev_named (sc_evhdlrs s) name k -> exists k', ev_named (sc_evhdlrs s') name k' /\ stays k k') /\
  forall name, In name (map e_name (sc_evhdlrs s')) <-> In name (map e_name (sc_evhdlrs s)) \/
    (fl_disjoint_paths (po_flags o) = true /\ name = "Disjoint paths cost cover") \/
    (fl_shortest_path (po_flags o) = true /\ name = "Shortest path cost cover") \/
    name = "pctsp_node_handler" \/ name = "pctsp_bound_handler".
Proof.
  intros Hr Hn H. pose proof (any_install _ _ _ _ _ _ _ _ _ Hr Hn H) as I. split.
  - intros name k Hk. apply ev_find_named in Hk. destruct (in_keep _ _ _ _ _ _ _ _ _ I _ _ Hk) as (k' & E & S). exists k'. split; [|exact S].
    now apply ev_find_named.
  - intros name. rewrite <- !ev_known. apply (in_names _ _ _ _ _ _ _ _ _ I).
Qed.

Lemma events_go g m root s bs : NoDup (map e_name (sc_evhdlrs s)) ->
  Forall (fun h => exists h' r, did g m root (bounds_of (inside bs)) h h' r) (sc_evhdlrs s) ->
  exists lv, run_phases g m root (mkLive s [] []) (phases_of bs) = Ok (lv, Okay).
Proof. destruct s as [cs hs ks rows]. intros Hn Ha. apply blocks_progress; assumption. Qed.

Lemma model_rows g heur c p quota root m : graph_ok g -> no_parallel g -> all_loops g -> length c = length (ge g) ->
  prizes_within g p (- int_max) int_max -> (- int_max <= quota <= int_max)%Z -> root < gn g ->
  (heur = [] \/ exists t es, tour_from g root t /\ trail g t es /\ Permutation heur es) ->
  model_pctsp g heur c p quota root = Ok m -> ilp_rows g p quota root (i_cons m).
Proof.
  intros H1 H2 H3 H4 H5 H6 H7 H8 E. destruct (model_pctsp_loops g heur c p quota root H1 H2 H3 H4 H5 H6 H7 H8) as (rows & h & E2 & Hr & _).
  rewrite E2 in E. injection E as <-. exact Hr.
Qed.

Lemma within_prizes g p P : prizes_within g p 0 P -> (Z.of_nat (gn g) * P <= int_max)%Z -> prizes_within g p (- int_max) int_max.
Proof.
  intros (H1 & H2) Hm. split; [exact H1|]. destruct (gn g) as [|n] eqn:En.
  - destruct p; [constructor|discriminate].
  - eapply Forall_impl; [|exact H2]. cbn. intros a Ha. unfold int_max in *. nia.
Qed.

Lemma check_model o defaults g heur c p P quota root entries m s order extra x :
  po_simple o = true -> graph_ok g -> no_parallel g -> all_loops g -> length c = length (ge g) -> prizes_within g p 0 P ->
  (Z.of_nat (gn g) * P <= int_max)%Z -> (- int_max <= quota <= int_max)%Z -> root < gn g ->
  (Z.of_nat (List.length (ge g)) <= 1000000000)%Z -> var_entries g entries ->
  (heur = [] \/ exists t es, tour_from g root t /\ trail g t es /\ Permutation heur es) ->
  model_pctsp g heur c p quota root = Ok m ->
  sc_conshdlrs s = wanted_conshdlrs defaults o -> sc_conss s = wanted_conss o -> sc_rows s = i_cons m ++ extra ->
  by_priority c_checkpriority (sc_conshdlrs s) order -> binary g x ->
  exists b names, check_solution g p quota root entries s order x = Ok (b, names) /\
    (b = true <-> (exists t, tour_from g root t /\ incidence g t x /\ meets_quota p quota t) /\ Forall (row_sat x) extra) /\
    (In "pctsp_sec_handler" names \/ In "Cycle cover" names -> Forall (row_sat x) (i_cons m ++ extra)).
Proof.
  intros Hs Hg Hp Hl Hc Hpr HP Hq Hr Hsz He Hh Em. apply (check_exact o defaults g p P quota root entries (i_cons m)); auto.
  eapply model_rows; eauto using within_prizes.
Qed.

Lemma accepted_checked {D} (small : D -> D -> bool) o defaults g heur c p P quota root entries m s order order' extra
    (before : list (lp_call D)) lc :
  po_simple o = true -> graph_ok g -> no_parallel g -> all_loops g -> length c = length (ge g) -> prizes_within g p 0 P ->
  (Z.of_nat (gn g) * P <= int_max)%Z -> (- int_max <= quota <= int_max)%Z -> root < gn g ->
  (Z.of_nat (List.length (ge g)) <= 1000000000)%Z -> var_entries g entries ->
  (heur = [] \/ exists t es, tour_from g root t /\ trail g t es /\ Permutation heur es) ->
  model_pctsp g heur c p quota root = Ok m ->
  sc_conshdlrs s = wanted_conshdlrs defaults o -> sc_conss s = wanted_conss o -> sc_rows s = i_cons m ++ extra ->
  by_priority c_enfopriority (sc_conshdlrs s) order -> by_priority c_checkpriority (sc_conshdlrs s) order' ->
  Forall lp_ok (before ++ [lc]) -> binary g (lc_sol lc) -> Forall (row_sat (lc_sol lc)) (sc_rows s) ->
  exists rs, (enforce_run small g entries s order (before ++ [lc]) [] = Ok (rs ++ [Accepts]) <->
              exists names, check_solution g p quota root entries s order' (lc_sol lc) = Ok (true, names)) /\
             exists r, enforce_run small g entries s order (before ++ [lc]) [] = Ok (rs ++ [r]).
Proof.
  intros Hs Hg Hp Hl Hc Hpr HP Hq Hr Hsz He Hh Em E1 E2 E3 Ho Ho' HF Hb Hrs.
  assert (Hi : ilp_rows g p quota root (i_cons m)) by (eapply model_rows; eauto using within_prizes).
  destruct (enforce_from_start small o defaults g entries Hs Hg Hp He s order (before ++ [lc]) E1 Ho HF) as (rs & Er & Hout).
  destruct (check_model o defaults g heur c p P quota root entries m s order' extra (lc_sol lc) Hs Hg Hp Hl Hc Hpr HP Hq Hr Hsz He Hh Em E1 E2 E3 Ho' Hb)
    as (b & names & Ec & Hb1 & _).
  assert (X : exists rs' r b', rs = rs' ++ [r] /\ outcome small (po_tailing o) g b' lc r).
  { clear - Hout.
    enough (X : forall bf rs, outcomes small (po_tailing o) g bf (before ++ [lc]) rs ->
      exists rs' r b', rs = rs' ++ [r] /\ outcome small (po_tailing o) g b' lc r) by (eapply X; exact Hout).
    clear. induction before as [|c0 before IH]; intros bf rs Hout; cbn [app] in Hout.
    - inversion Hout as [|? ? ? r rs0 H1 H2]; subst. inversion H2; subst. eexists [], r, _. split; [reflexivity|eassumption].
    - inversion Hout as [|? ? ? r rs0 H1 H2]; subst. apply IH in H2 as (rs' & r' & b' & -> & H3). exists (r :: rs'), r', b'. auto. }
  destruct X as (rs' & r & b' & -> & Ho2). exists rs'. split; [|eauto]. rewrite E3 in Hrs. apply Forall_app in Hrs as [Hr1 Hr2].
  assert (G : on_one_cycle g (lc_sol lc) <-> exists t, tour_from g root t /\ incidence g t (lc_sol lc) /\ meets_quota p quota t).
  { rewrite <- (rows_incidence g p quota root (i_cons m) (lc_sol lc) entries Hg Hp Hl (proj1 Hpr) Hr Hi Hb He).
    destruct (sol_check g (lc_sol lc) entries Hg Hp (proj1 Hb) He) as [(-> & H)|(-> & H)]; intuition discriminate. }
  rewrite Er, Ec. destruct Ho2 as (l & _ & Ho2). cbn zeta in Ho2. split.
  - intros H. injection H as H. apply app_inj_tail in H as [_ ->]. exists names.
    destruct Ho2 as [(_ & _ & H)|[(H & _)|[(H & _)|(H & _)]]]; try discriminate. apply G in H. replace b with true; [reflexivity|].
    symmetry. apply Hb1. auto.
  - intros (names' & H). injection H as -> ->. destruct (proj1 Hb1 eq_refl) as [H _]. apply G in H.
    pose proof (binary_integral g _ Hb) as HN. replace r with Accepts; [reflexivity|]. destruct Ho2 as [(-> & _)|[(_ & H1)|[(_ & _ & H1 & _)|(_ & _ & H1 & _)]]]; tauto.
Qed.

Lemma cut_numbers s name : ~ In name (map e_name (sc_evhdlrs s)) -> get_n_cover_cuts s name = UB NullDeref /\ summary_cover s name = Ok (0, 0)%Z.
Proof. intros H. apply ev_find_none in H. unfold get_n_cover_cuts, summary_cover. now rewrite H. Qed.

Lemma cut_numbers_there s name o : ev_named (sc_evhdlrs s) name (ECover o) ->
  get_n_cover_cuts s name = Ok ((co_added o + co_init o) mod 2 ^ 32)%Z /\
  summary_cover s name = Ok ((co_added o + co_init o) mod 2 ^ 32, co_init o)%Z.
Proof. intros H. apply ev_find_named in H. unfold get_n_cover_cuts, summary_cover. rewrite H. split; reflexivity. Qed.
