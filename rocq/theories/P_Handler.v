(** * P_Handler: proofs about the callbacks of the subtour handler *)
From Coq Require Import Permutation.
From Verif Require Import Base Graph Spec Spec_Cycle M_Walk M_Graph M_Solution M_ILP M_Subtour M_MaxFlow
  M_Handler Spec_ILP Spec_Flow Spec_Handler.
From Verif Require Import P_Base P_Solution P_Cycle P_ILP P_SolveCount P_CheckFlow.
Open Scope nat_scope.

(** ** the check *)
Definition posb (s : sol) (e : nat) : bool := is_var_positive s e.

Lemma posb_spec s e : (0 < s_den s)%Z -> posb s e = true <-> above_zero s e.
Proof.
  intros Hd. unfold posb, is_var_positive, scip_is_zero, above_zero.
  rewrite andb_true_iff, negb_true_iff, Z.leb_gt, Z.ltb_lt. lia.
Qed.

Lemma frac_edges_filter g s entries :
  Forall (fun ev => fst ev < length (ge g) /\ snd ev = fst ev) entries -> forall acc,
  foldM (fun acc ev =>
           do uv <- endpoints g (fst ev);
           Ok (if andb (negb (Nat.eqb (fst uv) (snd uv))) (is_var_positive s (snd ev))
               then acc ++ [fst ev] else acc)) entries acc
  = Ok (acc ++ filter (fun e => negb (loopb g e) && posb s e) (map fst entries)).
Proof.
  induction 1 as [|[e v] entries [He Hs] _ IH]; intros acc.
  - cbn. now rewrite app_nil_r.
  - cbn [fst snd] in *. subst v. cbn [foldM map filter fst snd].
    destruct (nth_error (ge g) e) as [(a, b)|] eqn:E; [|apply nth_error_None in E; lia].
    assert (En : endpoints g e = Ok (a, b)) by (unfold endpoints, vget; now rewrite E).
    rewrite En. cbn [bind fst snd]. rewrite IH. unfold loopb, posb. rewrite E.
    destruct (negb (Nat.eqb a b) && is_var_positive s e); cbn [app]; f_equal. now rewrite <- app_assoc.
Qed.

Lemma sol_check g s entries : graph_ok g -> no_parallel g -> (0 < s_den s)%Z -> var_entries g entries ->
  (is_sol_simple_cycle g s entries = Ok true /\ on_one_cycle g s) \/
  (is_sol_simple_cycle g s entries = Ok false /\ ~ on_one_cycle g s).
Proof.
  intros Hg Hp Hd He. unfold is_sol_simple_cycle, get_solution_edges. unfold var_entries in He.
  rewrite frac_edges_filter.
  2:{ apply Forall_forall. intros ev Hin. apply (Permutation_in _ He) in Hin.
      apply in_map_iff in Hin as (e & <- & Hin). apply in_seq in Hin. cbn. lia. }
  cbn [app bind]. set (es := filter _ _).
  assert (HP : Permutation (map fst entries) (seq 0 (length (ge g)))).
  { apply (Permutation_map fst) in He. rewrite map_map in He. cbn [fst] in He. now rewrite map_id in He. }
  assert (Hin : forall e, In e es <-> above_zero s e /\ exists u v, u <> v /\ joins g e u v).
  { intros e. unfold es. rewrite filter_In, andb_true_iff, negb_true_iff, posb_spec by exact Hd. split.
    - intros (I & L & A). split; [exact A|]. apply (Permutation_in _ HP), in_seq in I.
      unfold loopb in L. destruct (nth_error (ge g) e) as [(a, b)|] eqn:E; [|apply nth_error_None in E; lia].
      exists a, b. split; [now apply Nat.eqb_neq|left; exact E].
    - intros (A & u & v & Hne & J). split; [|split; [|exact A]].
      + apply (Permutation_in _ (Permutation_sym HP)), in_seq. apply joins_lt in J. lia.
      + rewrite (loopb_joins g e u v J). now apply Nat.eqb_neq. }
  assert (Hnd : NoDup es).
  { apply NoDup_filter. eapply Permutation_NoDup; [apply Permutation_sym, HP|apply seq_NoDup]. }
  assert (Hv : Forall (fun e => e < length (ge g)) es).
  { apply Forall_forall. intros e I. apply Hin in I as (_ & u & v & _ & J). apply joins_lt in J. lia. }
  destruct (is_simple_cycle_iff g es Hg Hnd Hv) as (b & Eb & Hiff). rewrite Eb.
  destruct b; [left|right]; (split; [reflexivity|]).
  - exists es. split; [exact Hnd|]. split; [|exact Hin]. apply cycle_edges_simple; auto. now apply Hiff.
  - intros (es' & Hnd' & Hc & Hin'). enough (false = true) by discriminate. apply Hiff.
    apply cycle_edges_weaken. destruct Hc as (r & t & es2 & H1 & H2 & H3). exists r, t, es2. split; auto. split; auto.
    eapply Permutation_trans; [|exact H3]. apply NoDup_Permutation; auto. intros e. now rewrite Hin, Hin'.
Qed.

(** ** answers of separation *)
Definition told (lib : scip_lib) (st st' : sepa) : Prop :=
  exists new, sp_rows st' = sp_rows st ++ new /\ Forall (fun r => efficacious lib r = true) new /\
    sepa_answer lib (sp_result st) new (sp_result st').

Lemma told_refl lib st : told lib st st.
Proof. exists []. rewrite app_nil_r. split; [reflexivity|]. split; [constructor|]. left; auto. Qed.

Lemma told_trans lib a b c : told lib a b -> told lib b c -> told lib a c.
Proof.
  intros (n1 & E1 & F1 & A1) (n2 & E2 & F2 & A2). exists (n1 ++ n2). rewrite E2, E1, app_assoc. split; [reflexivity|].
  split; [apply Forall_app; auto|].
  destruct A2 as [(-> & ->)|(old & row & -> & ->)].
  - rewrite app_nil_r. exact A1.
  - right. exists (n1 ++ old), row. now rewrite app_assoc.
Qed.

Lemma add_sec_told lib g m S root t st st' : add_sec lib g m S root t st = Ok st' -> told lib st st'.
Proof.
  unfold add_sec. intros E. apply bind_ok in E as ((vars, coefs) & _ & E). unfold add_row in E.
  destruct (Nat.ltb (length coefs) (length vars)); [discriminate|].
  destruct (efficacious lib _) eqn:F; injection E as <-; [|apply told_refl].
  eexists [_]. cbn [sp_rows sp_result]. split; [reflexivity|]. split; [constructor; [exact F|constructor]|].
  right. exists [], (mkLin (combine vars coefs) None (Some 0%Z)). auto.
Qed.

Definition told_pair lib (s s' : sepa * nat) : Prop := told lib (fst s) (fst s').

Lemma component_told lib g m root S s s' : sec_component lib g m root S s = Ok s' -> told_pair lib s s'.
Proof.
  unfold sec_component. apply foldM_step.
  - intros. apply told_refl.
  - intros a b c. apply told_trans.
  - intros (sp, n) t st' E. apply bind_ok in E as (sp' & E & E'). injection E' as <-.
    unfold told_pair. cbn [fst snd] in *. eapply add_sec_told, E.
Qed.

Lemma disjoint_told lib g m root cvs rid s s' : separate_disjoint_tour lib g m root cvs rid s = Ok s' -> told_pair lib s s'.
Proof.
  unfold separate_disjoint_tour. destruct (Nat.eqb (length cvs) 1).
  - intros E. injection E as <-. apply told_refl.
  - apply foldM_step.
    + intros. apply told_refl.
    + intros a b c. apply told_trans.
    + intros st id st' E. apply bind_ok in E as (S & _ & E).
      destruct (andb (negb (Nat.eqb id rid)) (Nat.leb 2 (length S))); [eapply component_told, E|injection E as <-; apply told_refl].
Qed.

Definition told_mf lib (s s' : mf_state) : Prop := told lib (mf_sepa s) (mf_sepa s').

Lemma maxflow_told lib mf g s entries m root comp st st' :
  separate_maxflow lib mf g s entries m root comp st = Ok st' -> told_pair lib st st'.
Proof.
  unfold separate_maxflow. intros E. apply bind_ok in E as (((bm, d), sroot) & _ & E).
  apply bind_ok in E as (added & _ & E). apply bind_ok in E as (x & E & E'). injection E' as <-.
  enough (H : told_mf lib (mkMf (fst st) (snd st) added) x) by exact H. revert E.
  apply (foldM_step _ (told_mf lib)).
  - intros. apply told_refl.
  - intros a b c. apply told_trans.
  - intros q t q' E. unfold maxflow_target in E. apply bind_ok in E as (done & _ & E).
    destruct done; [injection E as <-; apply told_refl|]. destruct (mf d sroot t) as (flow, residual).
    destruct (Z.ltb _ _); [|injection E as <-; apply told_refl].
    apply bind_ok in E as (un & _ & E). apply bind_ok in E as (S & _ & E). revert E. unfold add_secs.
    apply (foldM_step _ (told_mf lib)).
    + intros. apply told_refl.
    + intros a b c. apply told_trans.
    + intros y u y' E. apply bind_ok in E as (t' & _ & E). apply bind_ok in E as (sp & E1 & E).
      apply bind_ok in E as (u' & _ & E). apply bind_ok in E as (ad & _ & E). injection E as <-.
      unfold told_mf. cbn [mf_sepa mf_num]. eapply add_sec_told, E1.
Qed.

Lemma subtour_told lib mf g s entries m root di mx sp sp' nd nf :
  separate_subtour lib mf g s entries m root di mx sp = Ok (sp', nd, nf) -> told lib sp sp'.
Proof.
  unfold separate_subtour. intros E. apply bind_ok in E as ((cvs, rid) & _ & E).
  apply bind_ok in E as ((s1, n1) & E1 & E). apply bind_ok in E as ((s2, n2) & E2 & E). injection E as <- <- <-.
  apply told_trans with s1.
  - destruct di; [apply disjoint_told in E1; exact E1|injection E1 as <- <-; apply told_refl].
  - destruct mx; [|injection E2 as <- <-; apply told_refl].
    apply bind_ok in E2 as (comp & _ & E2). apply maxflow_told in E2. exact E2.
Qed.

(** ** the gaps *)
Section Gaps.
Context {D : Type}.
Implicit Types (gaps : list (list D)) (l : list D).

(* what the code keeps of the gaps [l] *)
Definition kept (k : Z) l : list D := fold_left (fun a x => push_rolling a x k) l [].

Lemma kept_snoc k l x : kept k (l ++ [x]) = push_rolling (kept k l) x k.
Proof. unfold kept. now rewrite fold_left_app. Qed.

Lemma to_int_id n : (0 <= n < int_max)%Z -> to_int n = n.
Proof.
  unfold int_max, to_int. intros H. rewrite Z.mod_small by lia.
  destruct (Z.ltb_spec n 2147483648); lia.
Qed.

(* the list of node [n], empty if the vector is too short *)
Definition slot gaps (n : Z) : list D := nth (Z.to_nat n) gaps [].

Lemma resize_ok n gaps : (0 <= n < int_max)%Z ->
  exists g', roll_resize n gaps = Ok g' /\ Z.to_nat n < length g' /\ forall i, slot g' i = slot gaps i.
Proof.
  intros H. unfold roll_resize. destruct (Z.ltb_spec n 0); [lia|].
  destruct (Z.leb_spec (Z.of_nat (length gaps)) n).
  - unfold chk. assert (E : andb (int_min <=? n + 1)%Z (n + 1 <=? int_max)%Z = true)
      by (unfold int_min, int_max in *; lia).
    rewrite E. cbn [bind]. eexists. split; [reflexivity|]. split.
    + rewrite app_length, repeat_length. lia.
    + intros i. unfold slot. destruct (Nat.lt_ge_cases (Z.to_nat i) (length gaps)).
      * now apply app_nth1.
      * rewrite app_nth2 by lia. rewrite (nth_overflow gaps) by lia.
        destruct (nth_in_or_default (Z.to_nat i - length gaps)
          (repeat (@nil D) (Z.to_nat n + 1 - length gaps)) []) as [I|E']; [|exact E'].
        now apply repeat_spec in I.
  - exists gaps. split; [reflexivity|]. split; [lia|reflexivity].
Qed.

Lemma upd_slot n l gaps i : Z.to_nat n < length gaps -> (0 <= n)%Z -> (0 <= i)%Z ->
  slot (upd gaps (Z.to_nat n) l) i = if (i =? n)%Z then l else slot gaps i.
Proof.
  intros H Hn Hi. unfold slot. destruct (Z.eqb_spec i n) as [->|Hne].
  - revert H. generalize (Z.to_nat n). intros k. revert gaps. induction k as [|k IH]; intros [|x t] H; cbn in *; try lia; auto.
    apply IH. lia.
  - assert (Hk : Z.to_nat i <> Z.to_nat n) by lia. revert Hk. clear.
    generalize (Z.to_nat n), (Z.to_nat i). intros k j. revert gaps k. induction j as [|j IH]; intros [|x t] [|k] H; cbn; try lia; auto.
Qed.

Lemma stalled_iff (small : D -> D -> bool) k l :
  exists b, is_node_tailing_off small (kept k l) k = Ok b /\ (b = true <-> stalled small k l).
Proof.
  destruct (tailing_off_spec small (kept k l) k) as (b & E & H). exists b. split; [exact E|]. rewrite H. clear E H.
  destruct (Z.lt_ge_cases k 1) as [Hk|Hk].
  - unfold kept. rewrite push_rolling_off by exact Hk. split.
    + intros (_ & x & m & y & E & _). destruct m; discriminate.
    + intros (old & a & mid & z & _ & E & _). lia.
  - assert (E : kept k l = skipn (length l - Z.to_nat k) l).
    { pose proof (push_rolling_history l (Z.to_nat k) ltac:(lia)) as X. rewrite Z2Nat.id in X by lia. exact X. }
    rewrite E. split.
    + intros (Hl & x & m & y & Es & Hs). exists (firstn (length l - Z.to_nat k) l), x, m, y. split; [|split; [|exact Hs]].
      * rewrite <- Es. now rewrite firstn_skipn.
      * rewrite Es in Hl. cbn [length] in Hl. rewrite app_length in Hl. cbn [length] in Hl. lia.
    + intros (old & a & mid & z & El & Hl & Hs).
      assert (Eo : length l - Z.to_nat k = length old).
      { rewrite El, app_length. cbn [length]. rewrite app_length. cbn [length]. lia. }
      rewrite Eo, El. rewrite skipn_app, Nat.sub_diag, skipn_all. cbn [app skipn]. split.
      * cbn [length]. rewrite app_length. cbn [length]. lia.
      * exists a, mid, z. auto.
Qed.

(** ** rejected gaps *)
Lemma rejected_app g n cs1 cs2 (l1 l2 : list D) : rejected g n cs1 l1 -> rejected g n cs2 l2 -> rejected g n (cs1 ++ cs2) (l1 ++ l2).
Proof.
  induction 1; intros H2; cbn [app]; auto; [apply rej_here|apply rej_cycle|apply rej_elsewhere|apply rej_other]; auto.
Qed.

Lemma rejected_fun g n cs (l1 : list D) : rejected g n cs l1 -> forall l2, rejected g n cs l2 -> l1 = l2.
Proof.
  induction 1 as [|gap st s cs l Hc _ IH|n' gap st s cs l Hc _ IH|n' gap st s cs l Hne _ IH|c cs l Hne _ IH]; intros l2 H2;
    inversion H2; subst; try contradiction; try congruence; auto; try (f_equal; auto; fail); exfalso; eapply Hne || eapply H1 || idtac; reflexivity.
Qed.

Definition keeps (cfg : @hdlr_cfg D) g (before : list (@hcall D)) gaps : Prop :=
  forall n, (0 <= n < int_max)%Z -> exists l, rejected g n before l /\ slot gaps n = kept (h_tailing cfg) l.

Lemma keeps_other cfg g before c gaps : (forall n gap st s, c <> EnfoLp n gap st s) ->
  keeps cfg g before gaps -> keeps cfg g (before ++ [c]) gaps.
Proof.
  intros Hc H n Hn. destruct (H n Hn) as (l & R & E). exists l. split; [|exact E].
  rewrite <- (app_nil_r l). apply rejected_app; auto. apply rej_other; auto. constructor.
Qed.

Variables (cfg : @hdlr_cfg D) (mf : flow_lib) (g : graph) (entries : list (nat * nat)) (root : nat).
Hypotheses (Hg : graph_ok g) (Hp : no_parallel g) (He : var_entries g entries).

Lemma enfolp_ok before n gap st s gaps : (0 < s_den s)%Z -> (0 <= n < int_max)%Z -> keeps cfg g before gaps ->
  exists gaps' a, enfolp cfg g entries n gap st s gaps = Ok (gaps', a) /\
    keeps cfg g (before ++ [EnfoLp n gap st s]) gaps' /\
    ((on_one_cycle g s /\ a = Says Feasible) \/
       (~ on_one_cycle g s /\ exists l, rejected g n before l /\
          let b := stalled (h_small cfg) (h_tailing cfg) (l ++ [gap]) /\ (st = LpOptimal \/ st = LpUnboundedRay) in
          (b /\ a = AsksToBranch) \/ (~ b /\ a = Says Infeasible))).
Proof.
  intros Hd Hn HK. unfold enfolp. destruct (sol_check g s entries Hg Hp Hd He) as [(E & Hc)|(E & Hc)]; rewrite E; cbn [bind].
  - exists gaps, (Says Feasible). split; [reflexivity|]. split; [|left; auto].
    intros i Hi. destruct (HK i Hi) as (l & R & El). exists l. split; [|exact El].
    rewrite <- (app_nil_r l). apply rejected_app; auto. apply rej_cycle; auto. constructor.
  - rewrite to_int_id by exact Hn. destruct (resize_ok n gaps Hn) as (g1 & E1 & L1 & S1). rewrite E1. cbn [bind].
    assert (Eg : vget g1 (Z.to_nat n) = Ok (slot gaps n)).
    { unfold vget. rewrite (nth_error_nth' g1 [] L1). f_equal. exact (S1 n). }
    rewrite Eg. cbn [bind]. destruct (HK n Hn) as (l & R & El).
    rewrite El, <- kept_snoc. unfold vset. rewrite (proj2 (Nat.ltb_lt _ _) L1). cbn [bind].
    destruct (stalled_iff (h_small cfg) (h_tailing cfg) (l ++ [gap])) as (b & Eb & Hb). rewrite Eb. cbn [bind].
    eexists. eexists. split; [reflexivity|]. split.
    + intros i Hi. rewrite upd_slot by (auto; lia). destruct (Z.eqb_spec i n) as [->|Hne].
      * exists (l ++ [gap]). split; [|reflexivity]. apply rejected_app; auto. apply rej_here; auto. constructor.
      * rewrite S1. destruct (HK i Hi) as (li & Ri & Ei). exists li. split; [|exact Ei].
        rewrite <- (app_nil_r li). apply rejected_app; auto. apply rej_elsewhere; [congruence|constructor].
    + right. split; [exact Hc|]. exists l. split; [exact R|]. cbn zeta.
      assert (Hm : may_branch st = true <-> st = LpOptimal \/ st = LpUnboundedRay)
        by (destruct st; cbn; split; intros H; auto; try discriminate; destruct H; discriminate).
      rewrite <- Hb, <- Hm. destruct b, (may_branch st); cbn [andb]; [left|right|right|right]; split; auto; intros (? & ?); discriminate.
Qed.

Hypotheses (Hl : all_loops g) (Hmax : (Z.of_nat (gn g) <= int_max)%Z) (Hr : root < gn g)
  (Hlen : forall d s t, length (snd (mf d s t)) = length (n_arcs d)).

Lemma sepa_call_ok lib s r0 rows : (0 < s_den s)%Z ->
  (h_maxflow cfg = true -> exists e v, joins g e root v /\ root <> v /\ above_zero s e) ->
  exists sp nd nf new, separate_subtour lib mf g s entries (var_map g) root (h_disjoint cfg) (h_maxflow cfg) (mkSepa rows r0)
    = Ok (sp, nd, nf) /\ sp_rows sp = rows ++ new /\ sepa_answer lib r0 new (sp_result sp) /\ Forall (sound_row lib g root) new.
Proof.
  intros Hd Hm.
  destruct (separate_subtour_valid lib mf g s entries root (h_disjoint cfg) (h_maxflow cfg) (mkSepa rows r0) Hg Hl He Hmax Hr)
    as (sp & nd & nf & new & E & Er & _ & _ & _ & HF).
  - intros M. destruct (Hm M) as (e & v & J & N & A). exists e, v. split; auto. split; auto. now apply (posb_spec s e Hd).
  - intros. apply Hlen.
  - exists sp, nd, nf, new. split; [exact E|]. split; [exact Er|].
    destruct (subtour_told _ _ _ _ _ _ _ _ _ _ _ _ _ E) as (new' & Er' & He' & HA). cbn [sp_rows sp_result] in *.
    rewrite Er in Er'. apply app_inv_head in Er' as <-. split; [exact HA|].
    rewrite Forall_forall in *. intros r I. split; [apply He', I|apply HF, I].
Qed.

Lemma call_answers before h c : call_ok cfg g root c -> keeps cfg g before (hd_gaps h) ->
  exists h' a, hdlr_call cfg mf g entries root h c = Ok (h', a) /\ keeps cfg g (before ++ [c]) (hd_gaps h') /\
    answers cfg g root before c (hd_rows h) (hd_rows h') a.
Proof.
  intros Hc HK. destruct c as [s|s|n gap st s|lib s|lib s r0]; cbn [call_ok] in Hc; cbn [hdlr_call answers].
  - unfold check_sol. destruct (sol_check g s entries Hg Hp Hc He) as [(E & H)|(E & H)]; rewrite E; cbn [bind];
      (eexists; eexists; split; [reflexivity|]; split; [apply keeps_other; [discriminate|exact HK]|]; split; [reflexivity|]); auto.
  - unfold check_sol. destruct (sol_check g s entries Hg Hp Hc He) as [(E & H)|(E & H)]; rewrite E; cbn [bind];
      (eexists; eexists; split; [reflexivity|]; split; [apply keeps_other; [discriminate|exact HK]|]; split; [reflexivity|]); auto.
  - destruct Hc as (Hd & Hn). destruct (enfolp_ok before n gap st s (hd_gaps h) Hd Hn HK) as (gs & a & E & HK' & HA).
    rewrite E. cbn [bind]. eexists. eexists. split; [reflexivity|]. cbn [hd_gaps hd_rows]. auto.
  - destruct Hc as (Hd & Hm). destruct (sepa_call_ok lib s DidNotFind (hd_rows h) Hd Hm) as (sp & nd & nf & new & E & Er & HA & HF).
    rewrite E. cbn [bind]. eexists. eexists. split; [reflexivity|]. cbn [hd_gaps hd_rows].
    split; [apply keeps_other; [discriminate|exact HK]|]. exists new, (sp_result sp). auto.
  - destruct Hc as (Hd & Hm). destruct (sepa_call_ok lib s r0 (hd_rows h) Hd Hm) as (sp & nd & nf & new & E & Er & HA & HF).
    rewrite E. cbn [bind]. eexists. eexists. split; [reflexivity|]. cbn [hd_gaps hd_rows].
    split; [apply keeps_other; [discriminate|exact HK]|]. exists new, (sp_result sp). auto.
Qed.

Lemma run_answers cs : forall before h acc, Forall (call_ok cfg g root) cs -> keeps cfg g before (hd_gaps h) ->
  exists h' (l : list answer), foldM (fun ha c => do '(h, a) <- hdlr_call cfg mf g entries root (fst ha) c;
                     Ok (h, snd ha ++ [a])) cs (h, acc) = Ok (h', acc ++ l) /\
    all_answers cfg g root before (hd_rows h) cs l (hd_rows h') /\ keeps cfg g (before ++ cs) (hd_gaps h').
Proof.
  induction cs as [|c cs IH]; intros before h acc HF HK.
  - exists h, []. rewrite !app_nil_r. split; [reflexivity|]. split; [constructor|exact HK].
  - inversion HF as [|? ? H1 H2]; subst. destruct (call_answers before h c H1 HK) as (h1 & a & E & HK1 & HA).
    destruct (IH (before ++ [c]) h1 (acc ++ [a]) H2 HK1) as (h' & l & E' & HA' & HK').
    exists h', (a :: l). cbn [foldM fst snd]. rewrite E. cbn [bind]. rewrite E'. rewrite <- app_assoc in *.
    split; [reflexivity|]. split; [econstructor; eauto|]. exact HK'.
Qed.

Lemma handler_run cs : Forall (call_ok cfg g root) cs ->
  exists h (l : list answer), hdlr_run cfg mf g entries root new_hdlr cs = Ok (h, l) /\ all_answers cfg g root [] [] cs l (hd_rows h).
Proof.
  intros HF. destruct (run_answers cs [] new_hdlr [] HF) as (h & l & E & HA & _).
  - intros n Hn. exists []. split; [constructor|]. unfold slot, new_hdlr. cbn [hd_gaps]. now destruct (Z.to_nat n).
  - exists h, l. auto.
Qed.
End Gaps.

(** ** when branching is asked for *)
Lemma call_no_branch {D} (cfg : @hdlr_cfg D) mf g entries root h c h' a : (h_tailing cfg <= 1)%Z ->
  hdlr_call cfg mf g entries root h c = Ok (h', a) -> a <> AsksToBranch.
Proof.
  intros Hk E. destruct c as [s|s|n gap st s|lib s|lib s r0]; cbn [hdlr_call] in E.
  - unfold check_sol in E. apply bind_ok in E as (x & E1 & E2). apply bind_ok in E1 as (b & _ & E1). congruence.
  - unfold check_sol in E. apply bind_ok in E as (x & E1 & E2). apply bind_ok in E1 as (b & _ & E1). congruence.
  - apply bind_ok in E as ((gs, x) & E1 & E2). injection E2 as <- ->. unfold enfolp in E1.
    apply bind_ok in E1 as (b & _ & E1). destruct b; [congruence|].
    apply bind_ok in E1 as (g1 & _ & E1). apply bind_ok in E1 as (l & _ & E1). apply bind_ok in E1 as (g2 & _ & E1).
    apply bind_ok in E1 as (t & Et & E1).
    destruct (tailing_off_spec (h_small cfg) (push_rolling l gap (h_tailing cfg)) (h_tailing cfg)) as (b & Eb & Hb).
    rewrite Eb in Et. injection Et as <-. destruct b; [|cbn [andb] in E1; congruence].
    destruct (proj1 Hb eq_refl) as (Hl & x & m & y & El & _). rewrite El in Hl. cbn [length] in Hl.
    rewrite app_length in Hl. cbn [length] in Hl. lia.
  - apply bind_ok in E as (((sp, nd), nf) & _ & E). congruence.
  - apply bind_ok in E as (((sp, nd), nf) & _ & E). congruence.
Qed.

Lemma never_branches (D : Type) (cfg : @hdlr_cfg D) mf g entries root cs h l :
  (h_tailing cfg <= 1)%Z -> hdlr_run cfg mf g entries root new_hdlr cs = Ok (h, l) -> ~ In AsksToBranch l.
Proof.
  intros Hk E. unfold hdlr_run in E.
  refine (foldM_step _ (fun s s' => ~ In AsksToBranch (snd s) -> ~ In AsksToBranch (snd s')) _ _ _ cs _ _ E _); auto.
  - intros (h1, l1) c (h2, l2) E1 H. cbn [fst snd] in *. apply bind_ok in E1 as ((h3, a) & E1 & E2).
    injection E2 as <- <-. rewrite in_app_iff. intros [I|[I|[]]]; [auto|]. subst. eapply call_no_branch in E1; eauto.
Qed.

Lemma repeat_snoc {A} (x : A) k : repeat x k ++ [x] = repeat x (S k).
Proof. induction k; cbn; [reflexivity|]. now rewrite IHk. Qed.

Lemma stalled_repeat {D} (small : D -> D -> bool) k gap m : (2 <= k)%Z -> small gap gap = true ->
  stalled small k (repeat gap m) <-> (k <= Z.of_nat m)%Z.
Proof.
  intros Hk Hs. split.
  - intros (old & a & mid & b & E & Hl & _). apply (f_equal (@length D)) in E.
    rewrite repeat_length, app_length in E. cbn [length] in E. rewrite app_length in E. cbn [length] in E. lia.
  - intros Hm. exists (repeat gap (m - Z.to_nat k)), gap, (repeat gap (Z.to_nat k - 2)), gap.
    split; [|split; [rewrite repeat_length; lia|exact Hs]].
    rewrite repeat_snoc. change (gap :: repeat gap (S (Z.to_nat k - 2))) with (repeat gap (S (S (Z.to_nat k - 2)))).
    rewrite <- repeat_app. f_equal. lia.
Qed.

Lemma no_progress (D : Type) (cfg : @hdlr_cfg D) mf g entries root n gap s m :
  graph_ok g -> no_parallel g -> var_entries g entries -> (0 < s_den s)%Z -> ~ on_one_cycle g s ->
  (0 <= n < int_max)%Z -> (2 <= h_tailing cfg)%Z -> h_small cfg gap gap = true ->
  exists h, hdlr_run cfg mf g entries root new_hdlr (repeat (EnfoLp n gap LpOptimal s) m) =
    Ok (h, map (fun i => if (Z.of_nat i + 1 <? h_tailing cfg)%Z then Says Infeasible else AsksToBranch) (seq 0 m)).
Proof.
  intros Hg Hp He Hd Hc Hn Hk Hs. set (c := EnfoLp n gap LpOptimal s).
  assert (R : forall m, rejected g n (repeat c m) (repeat gap m)).
  { clear m. induction m as [|m IH]; cbn [repeat]; [constructor|]. now apply rej_here. }
  enough (exists h, hdlr_run cfg mf g entries root new_hdlr (repeat c m) =
    Ok (h, map (fun i => if (Z.of_nat i + 1 <? h_tailing cfg)%Z then Says Infeasible else AsksToBranch) (seq 0 m)) /\
    keeps cfg g (repeat c m) (hd_gaps h)) as (h & E & _) by eauto.
  induction m as [|m (h & E & HK)].
  - exists new_hdlr. split; [reflexivity|]. intros i Hi. exists []. split; [constructor|].
    unfold slot, new_hdlr. cbn [hd_gaps]. now destruct (Z.to_nat i).
  - destruct (enfolp_ok cfg g entries Hg Hp He (repeat c m) n gap LpOptimal s (hd_gaps h) Hd Hn HK) as (gs & a & E1 & HK1 & HA).
    exists (mkHd gs (hd_rows h)). rewrite <- repeat_snoc. split; [|exact HK1].
    unfold hdlr_run in *. rewrite foldM_app, E. cbn [bind foldM fst snd]. unfold c at 1. cbn [hdlr_call]. rewrite E1. cbn [bind].
    rewrite seq_S, map_app. cbn [map Nat.add]. do 4 f_equal.
    destruct HA as [(H & _)|(_ & l & Rl & HA)]; [contradiction|]. rewrite (rejected_fun g n _ l Rl _ (R m)) in HA.
    rewrite repeat_snoc in HA. cbn zeta in HA. rewrite stalled_repeat in HA by auto.
    destruct (Z.ltb_spec (Z.of_nat m + 1) (h_tailing cfg)); destruct HA as [(H1 & ->)|(H1 & ->)]; auto.
    + destruct H1. lia.
    + exfalso. apply H1. split; [lia|auto].
Qed.

(* a flow that never gives a cut *)
Definition big_flow : flow_lib := fun d _ _ => ((2 * flow_float_multiplier)%Z, map a_cap (n_arcs d)).
