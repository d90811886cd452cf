(** * P_SolveCount: the numbers of constraints that branch and cut reports *)
From Verif Require Import Spec Spec_ILP Spec_Cover Spec_Flow Spec_Solve M_Dijkstra P_Dijkstra P_Solve.
From Verif Require Import Base Graph M_Walk M_Graph M_Solution M_ILP M_Subtour M_CycleCover M_CostCover M_MaxFlow M_Solve P_Base.
Open Scope nat_scope.

Definition always (lib : scip_lib) : Prop := forall row, efficacious lib row = true.

(* rows [a -> a'] and the counter [n -> n'] *)
Definition counted (lib : scip_lib) (a : nat) (n : nat) (a' : nat) (n' : nat) : Prop :=
  a' + n <= a + n' /\ (always lib -> a' + n = a + n').

Lemma counted_trans lib a n a1 n1 a2 n2 : counted lib a n a1 n1 -> counted lib a1 n1 a2 n2 -> counted lib a n a2 n2.
Proof. intros (H1 & H2) (H3 & H4). split; [lia|]. intros A. specialize (H2 A). specialize (H4 A). lia. Qed.
Lemma counted_refl lib a n : counted lib a n a n.
Proof. split; lia. Qed.

Lemma add_sec_counted lib g m S root t st st' n : add_sec lib g m S root t st = Ok st' ->
  counted lib (length (sp_rows st)) n (length (sp_rows st')) (Datatypes.S n).
Proof.
  unfold add_sec. intros E. apply bind_ok in E as ((vars, coefs) & _ & E). unfold add_row in E.
  destruct (Nat.ltb (length coefs) (length vars)); [discriminate|].
  destruct (efficacious lib _) eqn:F; injection E as <-; cbn [sp_rows]; split; rewrite ?app_length; cbn [length]; try lia.
  intros A. rewrite A in F. discriminate.
Qed.

Lemma foldM_step {S A} (f : S -> A -> res S) (R : S -> S -> Prop) (HR : forall s, R s s) (HT : forall a b c, R a b -> R b c -> R a c)
  (H : forall s a s', f s a = Ok s' -> R s s') : forall l s s', foldM f l s = Ok s' -> R s s'.
Proof.
  induction l as [|a l IH]; intros s s' E; cbn [foldM] in E.
  - injection E as <-. apply HR.
  - apply bind_ok in E as (s1 & E1 & E2). eapply HT; [eapply H, E1|eapply IH, E2].
Qed.

Definition pair_counted lib (s s' : sepa * nat) : Prop :=
  counted lib (length (sp_rows (fst s))) (snd s) (length (sp_rows (fst s'))) (snd s').

Lemma component_counted lib g m root S s s' : sec_component lib g m root S s = Ok s' -> pair_counted lib s s'.
Proof.
  unfold sec_component. apply foldM_step.
  - intros. apply counted_refl.
  - intros a b c. apply counted_trans.
  - intros (sp, n) t st' E. apply bind_ok in E as (sp' & E & E'). injection E' as <-. cbn [fst snd] in *.
    eapply add_sec_counted, E.
Qed.

Lemma disjoint_counted lib g m root cvs rid s s' : separate_disjoint_tour lib g m root cvs rid s = Ok s' -> pair_counted lib s s'.
Proof.
  unfold separate_disjoint_tour. destruct (Nat.eqb (length cvs) 1).
  - intros E. injection E as <-. apply counted_refl.
  - apply foldM_step.
    + intros. apply counted_refl.
    + intros a b c. apply counted_trans.
    + intros st id st' E. apply bind_ok in E as (S & _ & E).
      destruct (andb (negb (Nat.eqb id rid)) (Nat.leb 2 (length S))); [eapply component_counted, E|injection E as <-; apply counted_refl].
Qed.

Definition mf_counted lib (s s' : mf_state) : Prop :=
  counted lib (length (sp_rows (mf_sepa s))) (mf_num s) (length (sp_rows (mf_sepa s'))) (mf_num s').

Lemma maxflow_counted lib mf g s entries m root comp st st' :
  separate_maxflow lib mf g s entries m root comp st = Ok st' -> pair_counted lib st st'.
Proof.
  unfold separate_maxflow. intros E. apply bind_ok in E as (((bm, d), sroot) & _ & E).
  apply bind_ok in E as (added & _ & E). apply bind_ok in E as (x & E & E'). injection E' as <-.
  enough (H : mf_counted lib (mkMf (fst st) (snd st) added) x) by exact H. revert E.
  apply (foldM_step _ (mf_counted lib)).
  - intros. apply counted_refl.
  - intros a b c. apply counted_trans.
  - intros q t q' E. unfold maxflow_target in E. apply bind_ok in E as (done & _ & E).
    destruct done; [injection E as <-; apply counted_refl|]. destruct (mf d sroot t) as (flow, residual).
    destruct (Z.ltb _ _); [|injection E as <-; apply counted_refl].
    apply bind_ok in E as (un & _ & E). apply bind_ok in E as (S & _ & E). revert E. unfold add_secs.
    apply (foldM_step _ (mf_counted lib)).
    + intros. apply counted_refl.
    + intros a b c. apply counted_trans.
    + intros y u y' E. apply bind_ok in E as (t' & _ & E). apply bind_ok in E as (sp & E1 & E).
      apply bind_ok in E as (u' & _ & E). apply bind_ok in E as (ad & _ & E). injection E as <-.
      unfold mf_counted. cbn [mf_sepa mf_num]. eapply add_sec_counted, E1.
Qed.

Lemma subtour_counted lib mf g s entries m root di mx sp sp' nd nf :
  separate_subtour lib mf g s entries m root di mx sp = Ok (sp', nd, nf) ->
  counted lib (length (sp_rows sp)) 0 (length (sp_rows sp')) (nd + nf) /\ (di = false -> nd = 0) /\ (mx = false -> nf = 0).
Proof.
  unfold separate_subtour. intros E. apply bind_ok in E as ((cvs, rid) & _ & E).
  apply bind_ok in E as ((s1, n1) & E1 & E). apply bind_ok in E as ((s2, n2) & E2 & E). injection E as <- <- <-.
  assert (C1 : counted lib (length (sp_rows sp)) 0 (length (sp_rows s1)) n1 /\ (di = false -> n1 = 0)).
  { destruct di.
    - apply disjoint_counted in E1. unfold pair_counted in E1. cbn in E1. split; [exact E1|discriminate].
    - injection E1 as <- <-. split; [apply counted_refl|reflexivity]. }
  assert (C2 : counted lib (length (sp_rows s1)) 0 (length (sp_rows s2)) n2 /\ (mx = false -> n2 = 0)).
  { destruct mx.
    - apply bind_ok in E2 as (comp & _ & E2). apply maxflow_counted in E2. unfold pair_counted in E2. cbn in E2.
      split; [exact E2|discriminate].
    - injection E2 as <- <-. split; [apply counted_refl|reflexivity]. }
  destruct C1 as ((A1 & A2) & A3), C2 as ((B1 & B2) & B3). split; [|auto]. split; [lia|].
  intros A. specialize (A2 A). specialize (B2 A). lia.
Qed.

Lemma cover_counted lib g m p quota root s rows n sp n' :
  cycle_cover_sepalp lib g m p quota root s (mkSepa rows DidNotRun, n) = Ok (sp, n') ->
  (n' - n = Z.of_nat (length (sp_rows sp)) - Z.of_nat (length rows))%Z.
Proof.
  unfold cycle_cover_sepalp, separate_cycle_cover. cbn [fst snd]. intros E. apply bind_ok in E as (st' & E & E').
  injection E' as <- <-. apply bind_ok in E as (S & _ & E). apply bind_ok in E as (f & _ & E).
  destruct f; [injection E as <-; cbn; lia|]. unfold add_cycle_cover in E. destruct S as [|v S]; [injection E as <-; cbn; lia|].
  apply bind_ok in E as (es & _ & E). apply bind_ok in E as (ev & _ & E). apply bind_ok in E as (lo & _ & E).
  apply bind_ok in E as (vv & _ & E). apply bind_ok in E as ((vars, coefs) & _ & E). unfold add_row in E.
  destruct (Nat.ltb (length coefs) (length vars)); [discriminate|].
  destruct (efficacious lib _); [|injection E as <-; cbn; lia].
  destruct (row_infeasible lib _); injection E as <-; cbn [sp_rows sp_result]; rewrite app_length; cbn [length]; lia.
Qed.

Definition counts_ok (fl : solve_flags) (eff : Prop) (st : bc) : Prop :=
  length (b_sec st) <= b_nd st + b_nf st /\ (eff -> length (b_sec st) = b_nd st + b_nf st) /\
  (fl_sec_disjoint fl = false -> b_nd st = 0) /\ (fl_sec_maxflow fl = false -> b_nf st = 0) /\
  b_ncc st = Z.of_nat (length (b_cc st)) /\ (fl_cycle_cover fl = false -> b_cc st = []).

Lemma callbacks_counted fl mf g p quota root entries cbs : forall st st' (eff : Prop),
  (eff -> forall lib s, In (SepaSubtour lib s) cbs -> always lib) ->
  counts_ok fl eff st -> foldM (run_callback fl mf g p quota root entries) cbs st = Ok st' -> counts_ok fl eff st'.
Proof.
  induction cbs as [|cb cbs IH]; intros st st' eff HA HC E; cbn [foldM] in E.
  - injection E as <-. exact HC.
  - apply bind_ok in E as (s1 & E1 & E2). eapply IH; [intros F lib s I; eapply HA; [exact F|right; exact I]| |exact E2].
    destruct HC as (H1 & H2 & H3 & H4 & H5 & H6). destruct cb as [lib s|lib s|n d]; cbn [run_callback] in E1.
    + apply bind_ok in E1 as (((sp, nd), nf) & E1 & E). injection E as <-.
      apply subtour_counted in E1 as ((C1 & C2) & C3 & C4). cbn [sp_rows] in C1, C2.
      unfold counts_ok. cbn [b_sec b_nd b_nf b_ncc b_cc]. split; [lia|]. split; [|split; [|split; [|split; assumption]]].
      * intros F. specialize (H2 F). specialize (C2 (HA F lib s ltac:(left; reflexivity))). lia.
      * intros D. rewrite H3, C3 by assumption. reflexivity.
      * intros D. rewrite H4, C4 by assumption. reflexivity.
    + destruct (fl_cycle_cover fl) eqn:FC; [|injection E1 as <-; repeat split; auto].
      apply bind_ok in E1 as ((sp, n) & E1 & E). injection E as <-. apply cover_counted in E1.
      repeat split; cbn [b_sec b_nd b_nf b_ncc b_cc]; auto; try lia; try discriminate.
    + apply bind_ok in E1 as (dp & _ & E1). apply bind_ok in E1 as (sp & _ & E1). injection E1 as <-.
      repeat split; cbn [b_sec b_nd b_nf b_ncc b_cc]; auto.
Qed.

Lemma solve_counts tb fl mf g heur c p quota root dist entries cbs sols st r :
  solve tb fl mf g heur c p quota root dist entries cbs sols = Ok (st, r) ->
  counts_ok fl (forall lib s row, In (SepaSubtour lib s) cbs -> efficacious lib row = true) st.
Proof.
  unfold solve, solve_start, solve_finish. intros E. apply bind_ok in E as ((m, s0) & E0 & E).
  apply bind_ok in E as (st1 & E1 & E). apply bind_ok in E as (es & _ & E). apply bind_ok in E as (r' & _ & E).
  injection E as <- <-. apply bind_ok in E0 as (m0 & _ & E0). apply bind_ok in E0 as (s1 & E0 & E2). injection E2 as <- <-.
  unfold solve_setup in E0. apply bind_ok in E0 as (u & _ & E0). apply bind_ok in E0 as (dp & _ & E0).
  apply bind_ok in E0 as (sp & _ & E0). injection E0 as <-.
  eapply callbacks_counted; [|  |exact E1].
  - intros F lib s I row. eapply F, I.
  - repeat split; cbn; auto.
Qed.

(* the whole call *)
Lemma solve_call : forall tb fl mf g c p C P quota root heur dist,
  good_pick tb -> (forall d s t, length (snd (mf d s t)) = length (n_arcs d)) ->
  graph_ok g -> no_parallel g -> loop_free g ->
  costs_within g c 0 C -> (0 <= C)%Z -> (2 * (Z.of_nat (gn g) * C) < int_max)%Z ->
  prizes_within g p 0 P -> (Z.of_nat (gn g) * P <= int_max)%Z ->
  (- int_max <= quota <= int_max)%Z -> root < gn g ->
  (Z.of_nat (length (ge g) + gn g) <= 1000000000)%Z ->
  (heur = [] \/ exists t, heur_of g root heur t) ->
  (fl_disjoint_paths fl = true -> length dist = gn g /\ tour_bounds g c root dist) ->
  (fl_shortest_path fl = true -> forall v, v < gn g -> exists w, is_walk g w /\ leads root v w) ->
  exists m st, solve_start tb fl g heur c p quota root dist = Ok (m, st) /\ i_graph m = looped g /\
    forall entries cbs sols, var_entries (i_graph m) entries ->
      scip_run m (accepted fl (i_graph m) p quota root entries) cbs sols ->
      exists st' r, solve tb fl mf g heur c p quota root dist entries cbs sols = Ok (st', r) /\
        ((sols = [] /\ r = []) \/
         exists t z, feasible_tour g c p quota root t z /\ edges_of_tour g t r) /\
        ((forall t, heur_of g root heur t -> meets_quota p quota t) ->
         scip_finished m (accepted fl (i_graph m) p quota root entries) (bc_rows st) (bc_rows st') sols ->
         (exists t z, optimal_tour g c p quota root t z /\ edges_of_tour g t r) \/
         (r = [] /\ forall t z, ~ feasible_tour g c p quota root t z)).
Proof.
  intros tb fl mf g c p C P quota root heur dist H1 H2 H3 H4 H5 H6 H7 H8 H9 H10 H11 H12 H13 H14 H15 H16.
  destruct (solve_whole tb fl mf g c p C P quota root heur dist) as (m & st & Es & Eg & R); auto.
  exists m, st. split; [exact Es|]. split; [exact Eg|]. intros entries cbs sols V S.
  destruct (R entries cbs sols V S) as (st' & r & E & X). exists st', r. split; [|exact X].
  unfold solve. rewrite Es. cbn [bind]. exact E.
Qed.
