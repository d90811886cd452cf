(** * P_Plugins2: proofs about what becomes of solutions *)
From Coq Require Import String Permutation Sorting.Sorted.
From Verif Require Import Base Graph Spec Spec_Cycle M_Walk M_Graph M_Dijkstra M_Solution M_ILP M_Subtour M_CycleCover M_CostCover
  M_MaxFlow M_Handler M_Solve M_Plugins Spec_ILP Spec_Handler Spec_Solve Spec_Plugins.
From Verif Require Import P_Base P_ILP P_Model P_Cover P_Solve P_Handler P_Plugins.
Open Scope string_scope.
Open Scope list_scope.
Open Scope nat_scope.

(** ** orders *)
Lemma top_first key l1 x l2 order : by_priority key (l1 ++ x :: l2) order -> Forall (fun y => (key y < key x)%Z) (l1 ++ l2) ->
  exists order', order = x :: order' /\ by_priority key (l1 ++ l2) order'.
Proof.
  intros [HP HS] HF. destruct order as [|y order]; [apply Permutation_sym, Permutation_nil in HP; destruct l1; discriminate|].
  assert (HP' : Permutation (x :: l1 ++ l2) (y :: order)) by (now rewrite Permutation_middle).
  apply StronglySorted_inv in HS as [HS1 HS2].
  assert (E : x = y).
  { destruct (Permutation_in y (Permutation_sym HP') (or_introl eq_refl)) as [E|Hi]; [exact E|].
    destruct (Permutation_in x HP' (or_introl eq_refl)) as [E|Hx]; [now symmetry|].
    rewrite Forall_forall in HF, HS2. specialize (HF _ Hi). specialize (HS2 _ Hx). cbn in *. lia. }
  subst y. exists order. split; [reflexivity|]. split; [|exact HS1]. eapply Permutation_cons_inv. exact HP'.
Qed.

Definition sec_of (o : options) : conshdlr :=
  sec_conshdlr (fl_sec_disjoint (po_flags o)) (fl_sec_maxflow (po_flags o)) (po_tailing o) (po_sepafreq o).
Definition cc_of (o : options) : list conshdlr := if fl_cycle_cover (po_flags o) then [cycle_cover_conshdlr] else [].

Lemma wanted_simple defaults o : po_simple o = true ->
  wanted_conshdlrs defaults o = [linear_conshdlr; integral_conshdlr; knapsack_conshdlr; varbound_conshdlr; sec_of o] ++ cc_of o.
Proof. intros H. unfold wanted_conshdlrs, of_scip. rewrite H. reflexivity. Qed.

Ltac lower := cbn [app]; repeat (apply Forall_cons; [reflexivity|]); apply Forall_nil.
Lemma by_nil key order : by_priority key [] order -> order = [].
Proof. intros [H _]. now apply Permutation_nil in H. Qed.

Lemma enfo_order defaults o order : po_simple o = true -> by_priority c_enfopriority (wanted_conshdlrs defaults o) order ->
  order = [sec_of o; integral_conshdlr; varbound_conshdlr; knapsack_conshdlr; linear_conshdlr] ++ cc_of o.
Proof.
  intros Hs H. rewrite (wanted_simple _ _ Hs) in H. unfold cc_of in *.
  apply (top_first _ [linear_conshdlr; integral_conshdlr; knapsack_conshdlr; varbound_conshdlr]) in H as (o1 & -> & H);
    [|destruct (fl_cycle_cover (po_flags o)); lower].
  apply (top_first _ [linear_conshdlr]) in H as (o2 & -> & H); [|destruct (fl_cycle_cover (po_flags o)); lower].
  apply (top_first _ [linear_conshdlr; knapsack_conshdlr]) in H as (o3 & -> & H); [|destruct (fl_cycle_cover (po_flags o)); lower].
  apply (top_first _ [linear_conshdlr]) in H as (o4 & -> & H); [|destruct (fl_cycle_cover (po_flags o)); lower].
  apply (top_first _ []) in H as (o5 & -> & H); [|destruct (fl_cycle_cover (po_flags o)); lower].
  cbn [app] in *. destruct (fl_cycle_cover (po_flags o)).
  - apply (top_first _ []) in H as (o6 & -> & H); [|lower]. apply by_nil in H. now subst o6.
  - apply by_nil in H. now subst o5.
Qed.

Lemma check_order defaults o order : po_simple o = true -> by_priority c_checkpriority (wanted_conshdlrs defaults o) order ->
  exists own, Permutation own (sec_of o :: cc_of o) /\
    order = [integral_conshdlr; varbound_conshdlr; knapsack_conshdlr; linear_conshdlr] ++ own.
Proof.
  intros Hs H. rewrite (wanted_simple _ _ Hs) in H. unfold cc_of in *.
  apply (top_first _ [linear_conshdlr]) in H as (o2 & -> & H); [|destruct (fl_cycle_cover (po_flags o)); lower].
  apply (top_first _ [linear_conshdlr; knapsack_conshdlr]) in H as (o3 & -> & H); [|destruct (fl_cycle_cover (po_flags o)); lower].
  apply (top_first _ [linear_conshdlr]) in H as (o4 & -> & H); [|destruct (fl_cycle_cover (po_flags o)); lower].
  apply (top_first _ []) in H as (o5 & -> & H); [|destruct (fl_cycle_cover (po_flags o)); lower].
  cbn [app] in *. exists o5. split; [|reflexivity]. apply Permutation_sym, H.
Qed.

(** ** integrality *)
Lemma integral_iff g x : (0 < s_den x)%Z -> lp_integral (List.length (ge g)) x = true <-> near_integers g x.
Proof.
  intros Hd. unfold lp_integral, near_integers. rewrite forallb_forall.
  assert (G : forall v, (let r := (s_num x v mod s_den x)%Z in ((r * 1000000 <=? s_den x) || ((s_den x - r) * 1000000 <=? s_den x))%Z) = true <->
    exists z, (Z.abs (s_num x v - z * s_den x) * 1000000 <= s_den x)%Z).
  { intros v. cbn zeta. rewrite orb_true_iff, !Z.leb_le. pose proof (Z.mod_pos_bound (s_num x v) _ Hd) as Hb.
    pose proof (Z.div_mod (s_num x v) (s_den x) ltac:(lia)) as Hm. set (r := (s_num x v mod s_den x)%Z) in *. set (q := (s_num x v / s_den x)%Z) in *.
    split.
    - intros [H|H]; [exists q|exists (q + 1)%Z].
      + replace (s_num x v - q * s_den x)%Z with r by lia. rewrite Z.abs_eq by lia. exact H.
      + replace (s_num x v - (q + 1) * s_den x)%Z with (r - s_den x)%Z by lia. rewrite Z.abs_neq by lia. lia.
    - intros (z & H). destruct (Z.lt_trichotomy z q) as [Hz|[Hz|Hz]].
      + assert (s_den x <= (q - z) * s_den x)%Z by nia. rewrite Z.abs_eq in H by lia. lia.
      + subst z. left. replace (s_num x v - q * s_den x)%Z with r in H by lia. rewrite Z.abs_eq in H by lia. exact H.
      + assert (E : (s_num x v - z * s_den x = r - (z - q) * s_den x)%Z) by lia. rewrite E in H.
        assert (s_den x <= (z - q) * s_den x)%Z by nia. rewrite Z.abs_neq in H by lia. right. lia. }
  split.
  - intros H e He. apply G, H, in_seq. lia.
  - intros H v Hv. apply in_seq in Hv. apply G, H. lia.
Qed.

Lemma binary_integral g x : binary g x -> near_integers g x.
Proof.
  intros [Hd Hb] e He. destruct (Hb e He) as [E|E]; [exists 0%Z|exists 1%Z]; rewrite E.
  - replace (0 - 0 * s_den x)%Z with 0%Z by lia. cbn. lia.
  - replace (s_den x - 1 * s_den x)%Z with 0%Z by lia. cbn. lia.
Qed.

(** ** enforcing *)
Section Enforce.
Context {D : Type}.
Variables (small : D -> D -> bool) (o : options) (defaults : list conshdlr) (g : graph) (entries : list (nat * nat)).
Hypotheses (Hs : po_simple o = true) (Hg : graph_ok g) (Hp : no_parallel g) (He : var_entries g entries).

Let cfg := mkHdlr (fl_sec_disjoint (po_flags o)) small (fl_sec_maxflow (po_flags o)) (po_tailing o).

Lemma enforce_cons (c : lp_call D) h hs b gaps : enforce small g entries c (h :: hs) b gaps =
  do '(gaps, r) <- enfolp_of small g entries c gaps h;
  match r with
  | Feasible => enforce small g entries c hs b gaps
  | Infeasible => enforce small g entries c hs true gaps
  | Branched | Separated | Cutoff => Ok (gaps, Resolves)
  | DidNotRun | DidNotFind => Ok (gaps, Invalid)
  end.
Proof. reflexivity. Qed.

(** the handlers behind the first two say yes *)
Lemma rest_feasible c hs b gaps : Forall (fun h => c_kind h = KRows \/ c_kind h = KCycleCover) hs ->
  enforce small g entries c hs b gaps = Ok (gaps, if b then Rejects else Accepts).
Proof.
  induction 1 as [|h hs H _ IH]; [reflexivity|]. cbn [enforce]. unfold enfolp_of. destruct H as [-> | ->]; cbn [bind]; exact IH.
Qed.

Lemma enforce_one before s order (c : lp_call D) gaps : sc_conshdlrs s = wanted_conshdlrs defaults o ->
  by_priority c_enfopriority (sc_conshdlrs s) order -> lp_ok c -> keeps cfg g (as_calls before) gaps ->
  exists gaps' r, enforce_lp small g entries s order c gaps = Ok (gaps', r) /\ outcome small (po_tailing o) g before c r /\
    keeps cfg g (as_calls (before ++ [c])) gaps'.
Proof.
  intros E1 Ho (Hd & Hn) HK. rewrite E1 in Ho. apply enfo_order in Ho; [|exact Hs]. subst order.
  destruct (enfolp_ok cfg g entries Hg Hp He (as_calls before) (lc_number c) (lc_gap c) (lc_stat c) (lc_sol c) gaps Hd Hn HK)
    as (gaps' & a & E & HK' & Ha).
  assert (R : exists l, filter (active s) ([varbound_conshdlr; knapsack_conshdlr; linear_conshdlr] ++ cc_of o) = l /\
    Forall (fun h => c_kind h = KRows \/ c_kind h = KCycleCover) l).
  { eexists. split; [reflexivity|]. apply Forall_forall. intros h Hi. apply filter_In in Hi as [Hi _]. apply in_app_iff in Hi as [Hi|Hi].
    - cbn [In] in Hi. destruct Hi as [<-|[<-|[<-|[]]]]; cbn; auto.
    - unfold cc_of in Hi. destruct (fl_cycle_cover (po_flags o)); [|destruct Hi]. destruct Hi as [<-|[]]. cbn. auto. }
  destruct R as (l & El & Fl).
  assert (F : filter (active s) ([sec_of o; integral_conshdlr; varbound_conshdlr; knapsack_conshdlr; linear_conshdlr] ++ cc_of o) =
    sec_of o :: integral_conshdlr :: l).
  { rewrite <- El. reflexivity. }
  unfold enforce_lp. rewrite F, enforce_cons. unfold enfolp_of at 1.
  change (c_kind (sec_of o)) with (KSec (fl_sec_disjoint (po_flags o)) (fl_sec_maxflow (po_flags o)) (po_tailing o)). cbv iota.
  fold cfg. rewrite E. cbn [bind].
  assert (I : forall b gs, enforce small g entries c (integral_conshdlr :: l) b gs =
    Ok (gs, if lp_integral (List.length (ge g)) (lc_sol c) then (if b then Rejects else Accepts) else Resolves)).
  { intros b gs. cbn [enforce]. unfold enfolp_of at 1. cbn [c_kind integral_conshdlr]. unfold branch_lp.
    destruct (lp_integral _ _); cbn [bind]; [|reflexivity]. now rewrite rest_feasible. }
  assert (A : as_calls (before ++ [c]) = (as_calls before ++ [EnfoLp (lc_number c) (lc_gap c) (lc_stat c) (lc_sol c)])%list)
    by (unfold as_calls; now rewrite map_app).
  rewrite A. pose proof (integral_iff g (lc_sol c) Hd) as HI.
  destruct Ha as [(Hc & ->)|(Hc & lg & Hr & Hb)].
  - rewrite I. eexists. eexists. split; [reflexivity|]. split; [|exact HK'].
    destruct (HK (lc_number c) Hn) as (lg & Hr & _). exists lg. split; [exact Hr|]. cbn zeta.
    destruct (lp_integral _ _); [left|right; left]; split; auto.
    + split; [now apply HI|exact Hc].
    + intros H. apply HI in H. discriminate.
  - cbn zeta in Hb. cbn [cfg h_small h_tailing] in Hb. destruct Hb as [(Hb & ->)|(Hb & ->)].
    + unfold branch_lp. destruct (lp_integral _ _); cbn [bind].
      * eexists. eexists. split; [reflexivity|]. split; [|exact HK']. exists lg. split; [exact Hr|]. cbn zeta. right. right. right.
        split; [reflexivity|]. split; [now apply HI|]. auto.
      * eexists. eexists. split; [reflexivity|]. split; [|exact HK']. exists lg. split; [exact Hr|]. cbn zeta. right. left.
        split; [reflexivity|]. intros H. apply HI in H. discriminate.
    + rewrite I. eexists. eexists. split; [reflexivity|]. split; [|exact HK']. exists lg. split; [exact Hr|]. cbn zeta.
      destruct (lp_integral _ _); [right; right; left|right; left]; (split; [reflexivity|]).
      * split; [now apply HI|]. auto.
      * intros H. apply HI in H. discriminate.
Qed.

Lemma enforce_all s order : sc_conshdlrs s = wanted_conshdlrs defaults o -> by_priority c_enfopriority (sc_conshdlrs s) order ->
  forall (cs before : list (lp_call D)) gaps, Forall lp_ok cs -> keeps cfg g (as_calls before) gaps ->
  exists rs, enforce_run small g entries s order cs gaps = Ok rs /\ outcomes small (po_tailing o) g before cs rs.
Proof.
  intros E1 Ho. induction cs as [|c cs IH]; intros before gaps HF HK; cbn [enforce_run].
  - exists []. split; [reflexivity|constructor].
  - apply Forall_cons_iff in HF as [Hc HF]. destruct (enforce_one before s order c gaps E1 Ho Hc HK) as (gaps' & r & E & Hr & HK').
    destruct (IH (before ++ [c]) gaps' HF HK') as (rs & Er & Hrs). rewrite E. cbn [bind]. rewrite Er. cbn [bind].
    exists (r :: rs). split; [reflexivity|]. constructor; assumption.
Qed.

Lemma enforce_from_start s order (cs : list (lp_call D)) : sc_conshdlrs s = wanted_conshdlrs defaults o ->
  by_priority c_enfopriority (sc_conshdlrs s) order -> Forall lp_ok cs ->
  exists rs, enforce_run small g entries s order cs [] = Ok rs /\ outcomes small (po_tailing o) g [] cs rs.
Proof.
  intros E1 Ho HF. apply enforce_all; auto. intros n Hn. exists []. split; [constructor|]. unfold slot. now destruct (Z.to_nat n).
Qed.
End Enforce.

Lemma no_invalid {D} (small : D -> D -> bool) k g before (cs : list (lp_call D)) rs : (k <= 1)%Z ->
  outcomes small k g before cs rs -> ~ In Invalid rs.
Proof.
  intros Hk. induction 1 as [|before c cs r rs H _ IH]; [intros []|]. intros [->|Hi]; [|exact (IH Hi)].
  destruct H as (l & _ & H). cbn zeta in H. destruct H as [(H & _)|[(H & _)|[(H & _)|(_ & _ & _ & Hs & _)]]]; try discriminate.
  destruct Hs as (old & a & mid & b & _ & Hm & _). lia.
Qed.

(** ** checking *)
Lemma row_holds_iff x r : row_holds x r = true <-> row_sat x r.
Proof.
  unfold row_holds, row_sat.
  assert (E : forall ts acc, fold_left (fun a t => a + snd t * s_num x (fst t))%Z ts acc = (acc + lin_value (s_num x) ts)%Z).
  { induction ts as [|[v a] ts IH]; intros acc; cbn [fold_left lin_value fst snd]; [lia|]. rewrite IH. lia. }
  cbn zeta. rewrite E, Z.add_0_l, andb_true_iff. destruct (l_lhs r) as [a|], (l_rhs r) as [b|]; rewrite ?Z.leb_le; split;
    intros [H1 H2]; (split; [intros a' [= <-] || (intros a' [=]) || auto | intros b' [= <-] || (intros b' [=]) || auto]); auto.
Qed.

Section Check.
Variables (o : options) (defaults : list conshdlr) (g : graph) (p : list Z) (P quota : Z) (root : nat) (entries : list (nat * nat)) (cons : list lin).
Hypotheses (Hs : po_simple o = true) (Hg : graph_ok g) (Hp : no_parallel g) (Hl : all_loops g) (Hpr : prizes_within g p 0 P)
  (HPm : (Z.of_nat (gn g) * P <= int_max)%Z) (Hr : root < gn g) (Hsize : (Z.of_nat (List.length (ge g)) <= 1000000000)%Z)
  (Hent : var_entries g entries) (Hrows : ilp_rows g p quota root cons).

Definition some_flow : flow_lib := fun d _ _ => (0%Z, map a_cap (n_arcs d)).

Definition good (x : sol) : Prop := exists t, tour_from g root t /\ incidence g t x /\ meets_quota p quota t.

Lemma cover_total x : exists b, cycle_cover_check g p quota root x = Ok (if b : bool then Feasible else Infeasible).
Proof.
  assert (HP0 : prizes_within g p (- P) P) by (split; [apply Hpr|]; eapply Forall_impl; [|apply Hpr]; cbn; lia).
  destruct (cover_violated_ok g p P quota root x Hg (gn_small g root some_flow Hl Hr Hsize ltac:(intros; apply map_length)) Hr HP0 HPm) as (S & b & z & ES & _ & _ & _ & _ & _ & Eb & _).
  unfold cycle_cover_check, is_cycle_cover_violated. rewrite ES. cbn [bind]. rewrite Eb. cbn [bind]. exists b. now destruct b.
Qed.

Lemma check_exact s order extra x : sc_conshdlrs s = wanted_conshdlrs defaults o -> sc_conss s = wanted_conss o ->
  sc_rows s = (cons ++ extra)%list -> by_priority c_checkpriority (sc_conshdlrs s) order -> binary g x ->
  exists b names, check_solution g p quota root entries s order x = Ok (b, names) /\
    (b = true <-> good x /\ Forall (row_sat x) extra) /\
    (In "pctsp_sec_handler" names \/ In "Cycle cover" names -> Forall (row_sat x) (cons ++ extra)).
Proof.
  intros E1 E2 E3 Ho Hb. rewrite E1 in Ho. apply check_order in Ho as (own & HP & ->); [|exact Hs].
  assert (Hd : (0 < s_den x)%Z) by apply Hb.
  assert (Hne : sc_rows s <> []) by (rewrite E3; destruct Hrows as (l & ds & _ & _ & ->); discriminate).
  assert (F : filter (active s) ([integral_conshdlr; varbound_conshdlr; knapsack_conshdlr; linear_conshdlr] ++ own) =
    integral_conshdlr :: linear_conshdlr :: own).
  { assert (A : forall h, In h own -> active s h = true).
    { intros h Hi. apply (Permutation_in _ HP) in Hi as [<-|Hi]; [reflexivity|]. unfold cc_of in Hi.
      destruct (fl_cycle_cover (po_flags o)) eqn:Ec; [|destruct Hi]. destruct Hi as [<-|[]]. unfold active. rewrite E2. unfold wanted_conss.
      rewrite Ec. reflexivity. }
    assert (B : filter (active s) own = own).
    { clear - A. induction own as [|h own IH]; [reflexivity|]. cbn [filter]. rewrite A by now left. f_equal. apply IH. intros h' Hi. apply A. now right. }
    assert (Q : forall n, existsb (fun k => String.eqb (k_hdlr k) n) (sc_conss s) = true -> n = "pctsp_sec_handler" \/ n = "Cycle cover").
    { intros n Hx. apply existsb_exists in Hx as (k & Hi & Hx). apply String.eqb_eq in Hx. rewrite E2 in Hi. unfold wanted_conss in Hi.
      destruct Hi as [<-|Hi]; [now left|]. destruct (fl_cycle_cover (po_flags o)); [|destruct Hi]. destruct Hi as [<-|[]]. now right. }
    assert (A1 : active s varbound_conshdlr = false /\ active s knapsack_conshdlr = false).
    { unfold active. cbn [c_needscons c_name varbound_conshdlr knapsack_conshdlr negb orb].
      split; (match goal with |- (?a || _)%bool = false => destruct a eqn:Ea end; [apply Q in Ea as [Ea|Ea]; discriminate|reflexivity]). }
    assert (A2 : active s linear_conshdlr = true).
    { unfold active. destruct (sc_rows s) as [|r0 rs]; [contradiction|]. cbn. apply orb_true_r. }
    cbn [app filter]. destruct A1 as [A1 A3]. rewrite A1, A3, A2, B. reflexivity. }
  unfold check_solution. rewrite F, E3. cbn [check_all]. unfold check_of at 1. cbn [c_kind integral_conshdlr].
  rewrite (proj2 (integral_iff g x Hd) (binary_integral g x Hb)). cbn [bind].
  unfold check_of at 1. cbn [c_kind linear_conshdlr].
  assert (HR : forallb (row_holds x) (cons ++ extra) = true <-> Forall (row_sat x) (cons ++ extra)).
  { rewrite forallb_forall, Forall_forall. split; intros H r Hi; apply row_holds_iff, H; exact Hi. }
  assert (T : good x <-> Forall (row_sat x) cons /\ is_sol_simple_cycle g x entries = Ok true).
  { symmetry. apply rows_incidence; auto. apply Hpr. }
  assert (TC : good x -> cycle_cover_check g p quota root x = Ok Feasible).
  { intros (t & H1 & H2 & H3).
    destruct (tour_acc g p P quota root (mkFlags false false true false false) some_flow entries cons Hg Hp Hl Hpr HPm Hr Hsize Hent Hrows
                ltac:(intros; apply map_length) t x H1 H2 H3) as [(_ & _ & H4) _]. now apply H4. }
  destruct (forallb (row_holds x) (cons ++ extra)) eqn:EF.
  - pose proof (proj1 HR eq_refl) as HS. apply Forall_app in HS as HS'. destruct HS' as [HS1 HS2].
    destruct (sol_check g x entries Hg Hp Hd Hent) as [(Ec & _)|(Ec & _)].
    + assert (G : good x) by (apply T; auto).
      assert (OK : exists names, check_all g p quota root entries (cons ++ extra) x own = Ok (true, names)).
      { assert (A : forall h, In h own -> check_of g p quota root entries (cons ++ extra) x h = Ok true).
        { intros h Hi. apply (Permutation_in _ HP) in Hi as [<-|Hi].
          - unfold check_of. cbn [sec_of sec_conshdlr c_kind]. exact Ec.
          - unfold cc_of in Hi. destruct (fl_cycle_cover (po_flags o)); [|destruct Hi]. destruct Hi as [<-|[]].
            unfold check_of. cbn [cycle_cover_conshdlr c_kind]. rewrite (TC G). reflexivity. }
        clear - A. induction own as [|h own IH]; [exists []; reflexivity|]. cbn [check_all]. rewrite A by now left. cbn [bind].
        destruct IH as (names & E); [intros h' Hi; apply A; now right|]. rewrite E. cbn [bind]. eauto. }
      destruct OK as (names & ->). cbn [bind]. eexists. eexists. split; [reflexivity|]. split; [tauto|]. intros _. exact HS.
    + assert (NG : ~ good x) by (rewrite T; intros [_ H]; congruence).
      assert (OK : exists names, check_all g p quota root entries (cons ++ extra) x own = Ok (false, names)).
      { assert (Hi : In (sec_of o) own) by (apply (Permutation_in _ (Permutation_sym HP)); now left).
        assert (A : forall h, In h own -> exists b, check_of g p quota root entries (cons ++ extra) x h = Ok b).
        { intros h Hj. apply (Permutation_in _ HP) in Hj as [<-|Hj].
          - exists false. unfold check_of. cbn [sec_of sec_conshdlr c_kind]. exact Ec.
          - unfold cc_of in Hj. destruct (fl_cycle_cover (po_flags o)); [|destruct Hj]. destruct Hj as [<-|[]].
            unfold check_of. cbn [cycle_cover_conshdlr c_kind]. destruct (cover_total x) as ([] & ->); cbn [bind]; eauto. }
        clear - Hi A Ec. induction own as [|h own IH]; [destruct Hi|]. cbn [check_all]. destruct (A h (or_introl eq_refl)) as ([] & Eh); rewrite Eh; cbn [bind].
        - destruct Hi as [->|Hi].
          + unfold check_of in Eh. cbn [sec_of sec_conshdlr c_kind] in Eh. congruence.
          + destruct (IH Hi) as (names & E); [intros h' Hj; apply A; now right|]. rewrite E. cbn [bind]. eauto.
        - eauto. }
      destruct OK as (names & ->). cbn [bind]. eexists. eexists. split; [reflexivity|]. split; [split; [discriminate|tauto]|]. intros _. exact HS.
  - cbn [bind]. eexists. eexists. split; [reflexivity|]. split.
    + split; [discriminate|]. intros [H1 H2]. apply T in H1 as [H1 _].
      assert (false = true) by (apply HR, Forall_app; auto). discriminate.
    + cbn [c_name integral_conshdlr linear_conshdlr In]. intros [[H|[H|[]]]|[H|[H|[]]]]; discriminate.
Qed.
End Check.

(** ** locks *)
Lemma row_locks_acc v l r ts : forall dn, let f := fun dn t =>
    if Nat.eqb (fst t) v then
      if Z.ltb 0 (snd t) then (fst dn + l, snd dn + r)
      else if Z.ltb (snd t) 0 then (fst dn + r, snd dn + l) else dn
    else dn in
  fst dn <= fst (fold_left f ts dn) /\ snd dn <= snd (fold_left f ts dn).
Proof.
  induction ts as [|t ts IH]; intros dn; cbn [fold_left]; [auto|]. cbn zeta in *.
  match goal with |- context [fold_left _ ts ?x] => destruct (IH x) as [H1 H2]; set (y := x) in * end.
  assert (fst dn <= fst y /\ snd dn <= snd y); [|lia].
  subst y. destruct (Nat.eqb (fst t) v), (Z.ltb 0 (snd t)), (Z.ltb (snd t) 0); cbn [fst snd]; lia.
Qed.

Lemma equality_locks v r a b c : l_lhs r = Some a -> l_rhs r = Some b -> In (v, c) (l_terms r) -> c <> 0%Z ->
  1 <= fst (row_locks v r) /\ 1 <= snd (row_locks v r).
Proof.
  intros Ha Hb Hi Hc. unfold row_locks. rewrite Ha, Hb. generalize (0, 0). induction (l_terms r) as [|t ts IH]; intros dn; [destruct Hi|].
  cbn [fold_left]. destruct Hi as [->|Hi]; [|now apply IH]. cbn [fst snd]. rewrite Nat.eqb_refl.
  match goal with |- context [fold_left _ ts ?x] => pose proof (row_locks_acc v 1 1 ts x) as [H1 H2]; cbn zeta in H1, H2; set (y := x) in * end.
  assert (1 <= fst y /\ 1 <= snd y); [|lia].
  subst y. destruct (Z.ltb_spec 0 c), (Z.ltb_spec c 0); cbn [fst snd]; lia.
Qed.

Lemma locks_acc v rows : forall dn, let f := fun dn r => (fst dn + fst (row_locks v r), snd dn + snd (row_locks v r)) in
  fst dn <= fst (fold_left f rows dn) /\ snd dn <= snd (fold_left f rows dn).
Proof.
  induction rows as [|r rows IH]; intros dn; cbn [fold_left]; [auto|]. cbn zeta in *.
  match goal with |- context [fold_left _ rows ?x] => destruct (IH x) as [H1 H2] end. cbn [fst snd] in *. lia.
Qed.

Lemma locks_row v rows r : In r rows -> fst (row_locks v r) <= fst (locks v rows) /\ snd (row_locks v r) <= snd (locks v rows).
Proof.
  unfold locks. generalize (0, 0). induction rows as [|r0 rows IH]; intros dn []; cbn [fold_left].
  - subst r0. match goal with |- context [fold_left _ rows ?x] => pose proof (locks_acc v rows x) as [H1 H2] end. cbn [fst snd] in *. lia.
  - auto.
Qed.

Lemma in_inc g v e : In e (inc g v) <-> exists u, u <> v /\ joins g e u v.
Proof.
  unfold inc, eids, joins. rewrite filter_In, in_seq. unfold incb. split.
  - intros [_ H]. destruct (nth_error (ge g) e) as [[a b]|]; [|discriminate]. apply andb_true_iff in H as [H1 H2].
    apply negb_true_iff, Nat.eqb_neq in H1. apply orb_true_iff in H2 as [H2|H2]; apply Nat.eqb_eq in H2; subst.
    + exists b. split; [congruence|]. now right.
    + exists a. split; [congruence|]. now left.
  - intros (u & Hn & [E|E]); rewrite E.
    + split; [apply nth_error_Some_lt in E; lia|]. destruct (Nat.eqb_spec u v); [congruence|]. now rewrite Nat.eqb_refl, orb_true_r.
    + split; [apply nth_error_Some_lt in E; lia|]. destruct (Nat.eqb_spec v u); [congruence|]. now rewrite Nat.eqb_refl.
Qed.

(** the row of an end of the edge *)
Lemma edge_row g p quota root rows e : graph_ok g -> no_parallel g -> all_loops g -> ilp_rows g p quota root rows -> e < List.length (ge g) ->
  exists v l, joins g l v v /\ In (mkLin ((l, (-2)%Z) :: map (fun e => (e, 1%Z)) (inc g v)) (Some 0%Z) (Some 0%Z)) rows /\ (e = l \/ (e <> l /\ In e (inc g v))).
Proof.
  intros Hg Hp Hl (l0 & ds & _ & Hds & ->) He. destruct (nth_error (ge g) e) as [[u v]|] eqn:E; [|apply nth_error_None in E; lia].
  assert (Hv : v < gn g) by apply (Hg u v (nth_error_In _ _ E)).
  unfold degree_rows in Hds. destruct (Forall2_In_l _ _ _ v Hds) as (r & Hir & l & Hj & ->); [apply in_seq; lia|].
  exists v, l. split; [exact Hj|]. split; [right; right; exact Hir|].
  destruct (Nat.eq_dec u v) as [->|Hn].
  - left. apply (Hp e l v v); [now left|exact Hj].
  - right. split; [|apply in_inc; exists u; split; [congruence|now left]]. intros ->. destruct Hj as [Hj|Hj]; rewrite E in Hj; congruence.
Qed.

Lemma moved_other x e a ts : ~ In e (map fst ts) -> lin_value (s_num (moved x e a)) ts = lin_value (s_num x) ts.
Proof.
  induction ts as [|[v b] ts IH]; intros H; [reflexivity|]. cbn [lin_value map fst In moved s_num] in *.
  destruct (Nat.eqb_spec v e); [exfalso; auto|]. now rewrite <- IH by auto.
Qed.

Lemma moved_ones x e a es : NoDup es -> In e es ->
  lin_value (s_num (moved x e a)) (map (fun e => (e, 1%Z)) es) = (lin_value (s_num x) (map (fun e => (e, 1%Z)) es) + (a - s_num x e))%Z.
Proof.
  induction es as [|i es IH]; intros Hn []; cbn [map lin_value].
  - subst i. apply NoDup_cons_iff in Hn as [H1 _]. rewrite moved_other by (rewrite map_map; cbn; now rewrite map_id).
    cbn [moved s_num]. rewrite Nat.eqb_refl. lia.
  - apply NoDup_cons_iff in Hn as [H1 H2]. rewrite IH by auto. cbn [moved s_num]. destruct (Nat.eqb_spec i e); [congruence|]. lia.
Qed.

Lemma edge_locked g p quota root rows e : graph_ok g -> no_parallel g -> all_loops g -> ilp_rows g p quota root rows -> e < List.length (ge g) ->
  1 <= fst (locks e rows) /\ 1 <= snd (locks e rows) /\
  exists r, In r rows /\ forall x a, row_sat x r -> a <> s_num x e -> ~ row_sat (moved x e a) r.
Proof.
  intros Hg Hp Hl Hr He. destruct (edge_row g p quota root rows e Hg Hp Hl Hr He) as (v & l & Hj & Hi & He').
  assert (L : 1 <= fst (locks e rows) /\ 1 <= snd (locks e rows)).
  { destruct (locks_row e _ _ Hi) as [H1 H2].
    assert (X : exists c, c <> 0%Z /\ In (e, c) ((l, (-2)%Z) :: map (fun e => (e, 1%Z)) (inc g v))).
    { destruct He' as [->|(_ & Hx)]; [exists (-2)%Z|exists 1%Z]; (split; [discriminate|]); [now left|]. right. apply in_map_iff. eauto. }
    destruct X as (c & Hc & Hx). destruct (equality_locks e (mkLin ((l, (-2)%Z) :: map (fun e => (e, 1%Z)) (inc g v)) (Some 0%Z) (Some 0%Z))
      0%Z 0%Z c eq_refl eq_refl Hx Hc). lia. }
  destruct L as [L1 L2]. split; [exact L1|]. split; [exact L2|]. eexists. split; [exact Hi|]. intros x a [S1 S2] Hne [T1 T2].
  cbn [l_lhs l_rhs l_terms] in *. specialize (S1 _ eq_refl). specialize (S2 _ eq_refl). specialize (T1 _ eq_refl). specialize (T2 _ eq_refl).
  cbn [lin_value] in *. replace (s_den (moved x e a)) with (s_den x) in * by reflexivity.
  destruct He' as [->|(Hne' & Hx)].
  - assert (Hx : ~ In l (map fst (map (fun e => (e, 1%Z)) (inc g v)))).
    { rewrite map_map. cbn. rewrite map_id. intros Hx. apply in_inc in Hx as (u & Hu & Hju).
      apply Hu. destruct Hj as [Hj|Hj], Hju as [Hju|Hju]; rewrite Hj in Hju; congruence. }
    rewrite (moved_other x l a _ Hx) in T1, T2. cbn [moved s_num] in T1, T2. rewrite Nat.eqb_refl in T1, T2. lia.
  - rewrite moved_ones in T1, T2 by (auto; apply NoDup_filter, seq_NoDup). cbn [moved s_num] in T1, T2. destruct (Nat.eqb_spec l e); [congruence|]. lia.
Qed.
