(** * P_CheckFlow: a max-flow function for examples, its check, and the separation as a whole *)
From Coq Require Import Permutation.
From Verif Require Import Base Graph Spec Spec_Cycle M_Walk M_Graph M_Solution M_ILP M_Subtour M_Renaming
  M_MaxFlow Spec_ILP Spec_Rename Spec_Flow.
From Verif Require Import P_Base P_Walk P_Check P_Cycle P_ILP P_CheckILP P_Model P_Lookup P_Cuts P_Component
  P_Separate P_Solution P_Renaming P_Flow P_MaxFlow P_Cover.
Open Scope nat_scope.

(** ** augmenting paths, to have a library for the examples (not a model of /repo code) *)
Fixpoint aug_path (fuel : nat) (d : net) (r : list Z) (t u : nat) (vis : list nat)
  : list nat * option (list nat) :=
  if Nat.eqb u t then (vis, Some [])
  else match fuel with
  | O => (vis, None)
  | S fuel =>
      fold_left (fun acc ia =>
        match acc with
        | (vis, Some p) => (vis, Some p)
        | (vis, None) =>
            if andb (0 <? nth (fst ia) r 0)%Z (negb (memb (a_dst (snd ia)) vis))
            then match aug_path fuel d r t (a_dst (snd ia)) (a_dst (snd ia) :: vis) with
                 | (vis, Some p) => (vis, Some (fst ia :: p))
                 | (vis, None) => (vis, None)
                 end
            else (vis, None)
        end) (out_arcs d u) (vis, None)
  end.

Definition add_at (r : list Z) (i : nat) (x : Z) : list Z := upd r i (nth i r 0 + x)%Z.

Definition push (d : net) (r : list Z) (p : list nat) : Z * list Z :=
  let b := fold_left (fun b i => Z.min b (nth i r 0%Z)) p 1000000000%Z in
  (b, fold_left (fun r i => match nth_error (n_arcs d) i with
                            | Some a => add_at (add_at r i (- b)%Z) (a_rev a) b
                            | None => r
                            end) p r).

Fixpoint ford (fuel : nat) (d : net) (s t : nat) (z : Z) (r : list Z) : Z * list Z :=
  match fuel with
  | O => (z, r)
  | S fuel =>
      match aug_path (n_size d) d r t s [s] with
      | (_, Some p) => let '(b, r) := push d r p in ford fuel d s t (z + b)%Z r
      | (_, None) => (z, r)
      end
  end.

Definition ford_lib : flow_lib := fun d s t => ford 40 d s t 0 (map a_cap (n_arcs d)).

(** ** checks *)
Definition net_okb (d : net) : bool :=
  forallb (fun a => Nat.ltb (a_src a) (n_size d) && Nat.ltb (a_dst a) (n_size d)) (n_arcs d).

Lemma net_okb_spec d : net_okb d = true -> net_ok d.
Proof.
  unfold net_okb, net_ok. rewrite forallb_forall, Forall_forall. intros H a Ha. apply H in Ha.
  apply andb_true_iff in Ha as [H1 H2]. apply Nat.ltb_lt in H1, H2. auto.
Qed.

Definition pairedb (d : net) : bool :=
  forallb (fun i => match nth_error (n_arcs d) i with
    | None => false
    | Some a => match nth_error (n_arcs d) (a_rev a) with
        | None => false
        | Some b => Nat.eqb (a_rev b) i && Nat.eqb (a_src b) (a_dst a) && Nat.eqb (a_dst b) (a_src a)
                    && negb (Nat.eqb (a_rev a) i)
        end end) (seq 0 (length (n_arcs d))).

Lemma pairedb_spec d : pairedb d = true -> paired d.
Proof.
  unfold pairedb, paired. rewrite forallb_forall. intros H i a Ea.
  specialize (H i (proj2 (in_seq _ _ _) (conj (Nat.le_0_l i) (nth_some_lt _ _ _ Ea)))).
  rewrite Ea in H. destruct (nth_error (n_arcs d) (a_rev a)) as [b|]; [|discriminate].
  exists b. split; auto. repeat rewrite andb_true_iff in H. destruct H as [[[H1 H2] H3] H4].
  apply Nat.eqb_eq in H1, H2, H3. apply negb_true_iff, Nat.eqb_neq in H4. auto.
Qed.

Definition flowb (d : net) (s t : nat) (z : Z) (r : list Z) : bool :=
  Nat.eqb (length r) (length (n_arcs d)) && forallb (fun x => 0 <=? x)%Z r &&
  forallb (fun i => match nth_error (n_arcs d) i with
    | None => true
    | Some a => match nth_error (n_arcs d) (a_rev a) with
        | None => true
        | Some b => (on_arc r (a_rev a) b =? - on_arc r i a)%Z
        end end) (seq 0 (length (n_arcs d))) &&
  forallb (fun v => Nat.eqb v s || Nat.eqb v t || (outflow d r v =? 0)%Z) (seq 0 (n_size d)) &&
  (outflow d r t =? - z)%Z.

Lemma outflow_far d r v : net_ok d -> n_size d <= v -> outflow d r v = 0%Z.
Proof.
  unfold net_ok, outflow. intros H Hv. generalize 0. induction H as [|a l [Ha _] H IH]; intros k; [reflexivity|].
  cbn [arc_sum]. rewrite IH. destruct (Nat.eqb_spec (a_src a) v); lia.
Qed.

Lemma flowb_spec d s t z r : net_ok d -> flowb d s t z r = true -> flow_of d s t z r.
Proof.
  unfold flowb. intros Hok H. repeat rewrite andb_true_iff in H. destruct H as [[[[H1 H2] H3] H4] H5].
  apply Nat.eqb_eq in H1. apply Z.eqb_eq in H5. rewrite forallb_forall in H2, H3, H4.
  split; [auto|]. split; [apply Forall_forall; intros x Hx; now apply Z.leb_le, H2|]. split; [|split; auto].
  - intros i a b Ea Eb. specialize (H3 i (proj2 (in_seq _ _ _) (conj (Nat.le_0_l i) (nth_some_lt _ _ _ Ea)))).
    rewrite Ea, Eb in H3. now apply Z.eqb_eq.
  - intros v Hs Ht. destruct (Nat.le_gt_cases (n_size d) v) as [Hv|Hv]; [now apply outflow_far|].
    specialize (H4 v (proj2 (in_seq _ _ _) (conj (Nat.le_0_l v) Hv))).
    repeat rewrite orb_true_iff in H4. destruct H4 as [[H4|H4]|H4]; [apply Nat.eqb_eq in H4; contradiction..|now apply Z.eqb_eq].
Qed.

Definition max_flowb (d : net) (s t : nat) (z : Z) (r : list Z) : bool :=
  flowb d s t z r && Nat.ltb s (n_size d) && match get_unreachable d s r with Ok U => memb t U | _ => false end.

Lemma max_flowb_spec d s t z r : net_ok d -> paired d -> max_flowb d s t z r = true -> max_flow d s t z r.
Proof.
  unfold max_flowb. intros Hok Hp H. repeat rewrite andb_true_iff in H. destruct H as [[H1 H2] H3].
  apply flowb_spec in H1; auto. apply Nat.ltb_lt in H2. split; auto.
  pose proof H1 as [Hlen _].
  destruct (reachable_ok d r Hok Hlen s H2) as (R & U & _ & EU & _ & HU & _ & HI).
  rewrite EU in H3. apply memb_In in H3.
  assert (Hs : ~ In s U) by (intros Hs; apply HI in Hs as [_ Hs]; apply Hs; constructor).
  assert (E : z = arc_sum (fun a => negb (memb (a_src a) U) && memb (a_dst a) U)
                    (fun _ a => a_cap a) 0 (n_arcs d)).
  { eapply (saturated d Hp s t z r H1 U); auto. intros u v Huv Hu Hv. apply HI in Hv as [Hv Hn]. apply Hn.
    apply dr_step with u; auto. destruct (in_dec Nat.eq_dec u U) as [|_]; [contradiction|].
    assert (D : dreach d r s u \/ ~ dreach d r s u).
    { destruct (in_dec Nat.eq_dec u U) as [Hin|Hin]; [apply HI in Hin as [_ Hin]; auto|].
      left. destruct (reachable_ok d r Hok Hlen s H2) as (R' & U' & _ & EU' & _ & _ & HR' & HI').
      rewrite EU in EU'. inversion EU'; subst U'.
      destruct (in_dec Nat.eq_dec u R') as [Hr|Hr]; [now apply HR'|].
      exfalso. apply Hin, HI. split; [|now rewrite <- HR'].
      destruct Huv as (i & a & x & Ea & <- & _). apply nth_error_In in Ea.
      unfold net_ok in Hok. rewrite Forall_forall in Hok. now apply Hok in Ea. }
    destruct D as [|D]; auto. exfalso. apply Hu, HI. split; auto.
    destruct Huv as (i & a & x & Ea & <- & _). apply nth_error_In in Ea.
    unfold net_ok in Hok. rewrite Forall_forall in Hok. now apply Hok in Ea. }
  intros z' r' Hf. rewrite E. now apply (weak_duality d Hp s t z' r').
Qed.

(** every flow the library returns for a network from [s] is maximum *)
Definition lib_okb (mf : flow_lib) (d : net) (s : nat) : bool :=
  net_okb d && pairedb d && forallb (fun t => Nat.eqb t s ||
    max_flowb d s t (fst (mf d s t)) (snd (mf d s t))) (seq 0 (n_size d)).

Lemma lib_okb_spec mf d s : lib_okb mf d s = true ->
  forall t, t < n_size d -> t <> s -> max_flow d s t (fst (mf d s t)) (snd (mf d s t)).
Proof.
  unfold lib_okb. repeat rewrite andb_true_iff. intros [[H1 H2] H3] t Ht Hts.
  apply net_okb_spec in H1. apply pairedb_spec in H2. rewrite forallb_forall in H3.
  specialize (H3 t (proj2 (in_seq _ _ _) (conj (Nat.le_0_l t) Ht))).
  apply orb_true_iff in H3 as [H3|H3]; [apply Nat.eqb_eq in H3; contradiction|]. now apply max_flowb_spec.
Qed.

Lemma push_length d p : forall b r, length (fold_left (fun r i => match nth_error (n_arcs d) i with
                            | Some a => add_at (add_at r i (- b)%Z) (a_rev a) b
                            | None => r
                            end) p r) = length r.
Proof.
  induction p as [|i p IH]; intros b r; [reflexivity|]. cbn [fold_left]. rewrite IH.
  destruct (nth_error (n_arcs d) i); auto. unfold add_at. now rewrite !upd_length.
Qed.

Lemma ford_length d s t n : forall z r, length (snd (ford n d s t z r)) = length r.
Proof.
  induction n as [|n IH]; intros z r; [reflexivity|]. cbn [ford].
  destruct (aug_path (n_size d) d r t s [s]) as [vis [p|]]; [|reflexivity].
  destruct (push d r p) as [b r'] eqn:E. rewrite IH. unfold push in E. inversion E. apply push_length.
Qed.

Lemma ford_sized d s t : length (snd (ford_lib d s t)) = length (n_arcs d).
Proof. unfold ford_lib. rewrite ford_length. apply map_length. Qed.

(** ** the separation as a whole *)
Definition root_edge (g : graph) (s : sol) (root : nat) (comp : list nat) : Prop :=
  exists e v, joins g e root v /\ root <> v /\ is_var_positive s e = true /\ In root comp /\ In v comp.

Lemma maxflow_rows lib mf g s entries root comp st : graph_ok g -> all_loops g -> var_entries g entries ->
  root_edge g s root comp ->
  (forall bm d sroot t, maxflow_network g s entries (var_map g) root comp = Ok (bm, d, sroot) ->
     length (snd (mf d sroot t)) = length (n_arcs d)) ->
  exists st' added, separate_maxflow lib mf g s entries (var_map g) root comp st = Ok st' /\
    extends g root added (fst st) (fst st') /\ snd st + length added <= snd st' /\
    forall ea eb, errors g s ea eb -> (0 < s_den s)%Z -> aligned g s comp ->
    (forall bm d sroot t, maxflow_network g s entries (var_map g) root comp = Ok (bm, d, sroot) ->
       t < n_size d -> t <> sroot -> max_flow d sroot t (fst (mf d sroot t)) (snd (mf d sroot t))) ->
    (forall row, In row added -> exists S v, v < gn g /\ (In root S <-> ~ In v S) /\ NoDup S /\
       valid_row g root row /\ sec_at g s S v row /\
       (1000000 * cut_value g (s_num s) S + s_den s <=
        2000000 * s_den s + eb * Z.of_nat (length (ge g)))%Z) /\
    (forall e v w S0, joins g e v w -> v <> w -> is_var_positive s e = true -> In v S0 -> ~ In root S0 ->
       (1000000000 * cut_value g (s_num s) S0 + ea * Z.of_nat (length (ge g)) < 2000000000 * s_den s)%Z ->
       exists S row, v < gn g /\ (In root S <-> ~ In v S) /\ NoDup S /\
         valid_row g root row /\ sec_at g s S v row /\
         (1000000 * cut_value g (s_num s) S + s_den s <=
          2000000 * s_den s + eb * Z.of_nat (length (ge g)))%Z /\
         (efficacious lib row = true -> In row added)).
Proof.
  intros Hg Hl He Hre Hlen.
  destruct (network_ok g s entries root comp He Hre) as (es & ps & rp & out & labels & d & sroot & _ & EN & HN).
  assert (Hlen' : forall t, length (snd (mf d sroot t)) = length (n_arcs d)) by (intros t; eauto).
  unfold separate_maxflow. rewrite EN. cbn [bind].
  destruct (separate_ok lib mf g Hg Hl s root comp es ps rp out labels d sroot HN Hlen' 0%Z 0%Z st)
    as (st' & added & E & X & L & _).
  exists st', added. split; [exact E|]. split; auto. split; auto.
  intros ea eb Herr Hden Hal Hmax.
  destruct (separate_ok lib mf g Hg Hl s root comp es ps rp out labels d sroot HN Hlen' ea eb st)
    as (st'' & added' & E' & X' & _ & C1 & C2).
  rewrite E in E'. inversion E'; subst st''.
  assert (added' = added) as ->.
  { destruct X as [X _], X' as [X' _]. rewrite X in X'. now apply app_inv_head in X'. }
  assert (Hgood : good mf g s comp d sroot ea eb).
  { split; auto. split; auto. split; auto. intros t Ht Hts. eapply Hmax; eauto. }
  split.
  - intros row Hrow. destruct (C1 row Hrow) as (S & v & H1 & H2 & H3 & H4 & H5 & H6).
    exists S, v. exact (conj H1 (conj H2 (conj H3 (conj H4 (conj H5 (H6 Hgood)))))).
  - intros e v w S0 Hj Hvw Hpos Hv Hr Hcut.
    assert (Hlab : In v labels).
    { destruct HN as [A B C D F G H I]. apply F, In_ends.
      assert (Hsup : supb g s e = true).
      { unfold supb. rewrite (loopb_joins _ _ _ _ Hj), Hpos, (proj2 (Nat.eqb_neq v w) Hvw). reflexivity. }
      assert (Hlt : e < length (ge g)) by (eapply joins_lt; eauto).
      assert (Hes : In e es).
      { apply (Permutation_in _ (Permutation_sym A)), filter_In. split; auto. now apply eids_In. }
      destruct (Forall2_In_l' _ _ _ e B Hes) as ([a b] & Hp & Ep). exists (a, b). split.
      - rewrite C. apply filter_In. split; auto. destruct (Hal e a b Hlt Hsup Ep) as [H1 H2].
        unfold compb. cbn [fst snd]. apply andb_true_iff. split; now apply memb_In.
      - destruct Hj as [Ej|Ej]; rewrite Ep in Ej; inversion Ej; subst; auto. }
    destruct (C2 Hgood v S0 Hlab Hv Hr Hcut) as (S & row & (H1 & H2 & H3 & H4 & H5 & H6) & H7).
    exists S, row. exact (conj H1 (conj H2 (conj H3 (conj H4 (conj H5 (conj (H6 Hgood) H7)))))).
Qed.

(** a vertex whose loop has a positive value has a positive edge when small values are multiples *)
Lemma positive_edge g s v l : degrees_two g (s_num s) -> joins g l v v -> (0 < s_den s)%Z ->
  (forall e, e < length (ge g) -> exists k, (s_num s e * 1000000 = k * s_den s)%Z) ->
  (0 < s_num s l)%Z -> exists e w, joins g e v w /\ v <> w /\ is_var_positive s e = true.
Proof.
  intros Hd Hj Hden Hk Hpos. specialize (Hd v l Hj). unfold degree_at, cut_value in Hd.
  rewrite edge_sum_terms in Hd.
  assert (G : forall L f, (0 < zsum f L)%Z -> exists e, In e L /\ (0 < f e)%Z).
  { induction L as [|e L IH]; intros f Hf; cbn [zsum] in Hf; [lia|].
    destruct (Z.lt_ge_cases 0 (f e)); [exists e; split; auto; now left|].
    destruct (IH f) as (e' & H1 & H2); [lia|]. exists e'. split; auto. now right. }
  destruct (G _ _ ltac:(rewrite Hd; lia)) as (e & He & Hx). apply in_seq in He.
  destruct (nth_some_ex (ge g) e) as [[a b] E]; [lia|].
  unfold eterm in Hx. rewrite E in Hx. unfold crosses in Hx. cbn [fst snd memb existsb] in Hx.
  rewrite !orb_false_r in Hx.
  assert (Hp : is_var_positive s e = true).
  { assert (Hne : (0 < s_num s e)%Z) by (destruct (xorb (Nat.eqb a v) (Nat.eqb b v)); lia).
    destruct (Hk e ltac:(lia)) as [k Ek].
    unfold is_var_positive, scip_is_zero. apply andb_true_iff. split; [|now apply Z.ltb_lt].
    apply negb_true_iff, Z.leb_gt. rewrite Z.abs_eq by lia.
    assert (1 <= k)%Z by nia. assert (s_den s <= k * s_den s)%Z by nia. lia. }
  destruct (Nat.eqb_spec a v) as [Ha|Ha], (Nat.eqb_spec b v) as [Hb|Hb]; cbn [xorb] in Hx; try lia.
  - subst a. exists e, b. split; [now left|]. auto.
  - subst b. exists e, a. split; [now right|]. auto.
Qed.

(** rows added for the components away from the root *)
Lemma disjoint_rows lib g s root st : graph_ok g -> all_loops g -> (Z.of_nat (gn g) <= int_max)%Z -> root < gn g ->
  exists cvs rid comp st' n added, support_components g s root = Ok (cvs, rid) /\
    vget cvs rid = Ok comp /\ (forall v, In v comp <-> connected (filter_positive g s) root v) /\
    separate_disjoint_tour lib g (var_map g) root cvs rid (st, 0) = Ok (st', n) /\
    extends g root added st st' /\ length added <= n.
Proof.
  intros Hg Hl Hmax Hr.
  destruct (support_components_ok g s root Hg Hmax Hr) as (cvs & rid & E & Hrid & Hcv & Hcov).
  destruct (nth_some_ex _ _ Hrid) as [comp Ec].
  destruct (Hcv rid comp Ec) as (_ & _ & Hin & Hcon).
  exists cvs, rid, comp.
  assert (G : forall ids st0, (forall id, In id ids -> id < length cvs) ->
    exists st1 added, foldM (fun st id =>
      do S <- vget cvs id;
      if andb (negb (Nat.eqb id rid)) (Nat.leb 2 (length S))
      then sec_component lib g (var_map g) root S st else Ok st) ids st0 = Ok st1 /\
      extends g root added (fst st0) (fst st1) /\ snd st0 + length added <= snd st1).
  { induction ids as [|id ids IH]; intros st0 Hids.
    - exists st0, []. split; auto. split; [apply extends_refl|cbn; lia].
    - cbn [foldM]. destruct (nth_some_ex cvs id) as [S ES]; [apply Hids; now left|].
      rewrite (vget_some _ _ _ ES). cbn [bind].
      assert (H1 : exists st1 ad, (if andb (negb (Nat.eqb id rid)) (Nat.leb 2 (length S))
          then sec_component lib g (var_map g) root S st0 else Ok st0) = Ok st1 /\
          extends g root ad (fst st0) (fst st1) /\ snd st0 + length ad <= snd st1).
      { destruct (negb (Nat.eqb id rid) && Nat.leb 2 (length S)) eqn:Eb.
        - apply andb_true_iff in Eb as [Eb _]. apply negb_true_iff, Nat.eqb_neq in Eb.
          destruct (Hcv id S ES) as (HSn & HSf & HSr & _).
          assert (Hrn : ~ In root S) by (intros H; apply HSr in H; contradiction).
          unfold sec_component.
          assert (K : forall L sx, incl L S -> exists sy ad,
            foldM (fun st target => do st' <- add_sec lib g (var_map g) S root target (fst st);
                      Ok (st', Datatypes.S (snd st))) L sx = Ok sy /\
            extends g root ad (fst sx) (fst sy) /\ snd sx + length ad <= snd sy).
          { induction L as [|v L IHL]; intros sx HL.
            - exists sx, []. split; auto. split; [apply extends_refl|cbn; lia].
            - cbn [foldM].
              assert (Hv : In v S) by (apply HL; now left).
              assert (Hvlt : v < gn g) by (rewrite Forall_forall in HSf; auto).
              destruct (add_sec_ok lib g S root v (fst sx) HSf HSn Hl Hvlt) as (row & s1 & E1 & H1 & Hval);
                [tauto|].
              rewrite E1. cbn [bind].
              destruct (IHL (s1, Datatypes.S (snd sx))) as (sy & ad & E2 & X2 & L2); [intros a Ha; apply HL; now right|].
              cbn [fst snd] in *.
              destruct (adds_row_extends lib g root row (fst sx) s1) as (ad1 & X1 & Had); [exact H1|exact Hval|].
              exists sy, (ad1 ++ ad). split; auto. split; [eapply extends_trans; eauto|].
              assert (length ad1 <= 1).
              { destruct (efficacious lib row) eqn:Ef; [rewrite (Had eq_refl); auto|].
                unfold adds_row in H1. rewrite Ef in H1. destruct X1 as [X1 _]. rewrite H1 in X1.
                rewrite <- (app_nil_r (sp_rows (fst sx))) in X1 at 1. apply app_inv_head in X1. subst ad1. cbn. lia. }
              rewrite app_length. lia. }
          apply K. apply incl_refl.
        - exists st0, []. split; auto. split; [apply extends_refl|cbn; lia]. }
      destruct H1 as (st1 & ad1 & E1 & X1 & L1). rewrite E1. cbn [bind].
      destruct (IH st1) as (st2 & ad2 & E2 & X2 & L2); [intros i Hi; apply Hids; now right|].
      exists st2, (ad1 ++ ad2). split; auto. split; [eapply extends_trans; eauto|]. rewrite app_length. lia. }
  unfold separate_disjoint_tour. destruct (Nat.eqb (length cvs) 1).
  { exists st, 0, []. split; auto. split; [now apply vget_some|]. split; [apply Hcon; tauto|].
    split; auto. split; [apply extends_refl|cbn; lia]. }
  destruct (G (seq 0 (length cvs)) (st, 0)) as ([st' n] & added & E1 & X1 & L1).
  { intros id Hid. apply in_seq in Hid. lia. }
  exists st', n, added. split; auto. split; [now apply vget_some|]. split; [apply Hcon; tauto|].
  split; [exact E1|]. split; auto.
Qed.

(** ** lemmas used by Properties_MaxFlow *)
Lemma reachable_partition d w s : net_ok d -> length w = length (n_arcs d) -> s < n_size d ->
  exists R U, get_reachable d s w = Ok R /\ get_unreachable d s w = Ok U /\
    NoDup R /\ NoDup U /\ In s R /\
    (forall v, In v R <-> dreach d w s v) /\
    (forall v, In v U <-> v < n_size d /\ ~ dreach d w s v) /\
    Permutation (R ++ U) (seq 0 (n_size d)) /\
    (forall u v, In u R -> In v U -> ~ pos_arc d w u v).
Proof.
  intros Hd Hw Hs. destruct (reachable_ok d w Hd Hw s Hs) as (R & U & E1 & E2 & H1 & H2 & H3 & H4).
  exists R, U. split; auto. split; auto. split; auto. split; auto.
  split; [apply H3; constructor|]. split; auto. split; auto. split.
  - apply NoDup_Permutation; [|apply seq_NoDup|].
    + apply NoDup_app_iff. split; auto. split; auto. intros v Hr Hu. apply H4 in Hu as [_ Hu]. now apply Hu, H3.
    + intros v. rewrite in_app_iff, in_seq. split.
      * intros [Hv|Hv]; [apply H3 in Hv; apply (dreach_lt d w Hd) in Hv; auto; lia|apply H4 in Hv; lia].
      * intros [_ Hv]. cbn in Hv. destruct (in_dec Nat.eq_dec v R) as [Hr|Hr]; auto. right. apply H4.
        split; auto. now rewrite <- H3.
  - intros u v Hu Hv Hp. apply H4 in Hv as [_ Hv]. apply Hv. apply dr_step with u; auto. now apply H3.
Qed.

Lemma cut_capacity_compl d R U : net_ok d -> (forall v, v < n_size d -> (In v U <-> ~ In v R)) ->
  arc_sum (fun a => negb (memb (a_src a) U) && memb (a_dst a) U) (fun _ a => a_cap a) 0 (n_arcs d)
  = cut_capacity d R.
Proof.
  intros Hd H. unfold cut_capacity. generalize 0. unfold net_ok in Hd.
  induction Hd as [|a l [H1 H2] Hd IH]; intros k; [reflexivity|]. cbn [arc_sum]. rewrite IH.
  assert (G : forall v, v < n_size d -> memb v U = negb (memb v R)).
  { intros v Hv. specialize (H v Hv). destruct (memb v R) eqn:E1; cbn [negb].
    - apply memb_not_In. apply memb_In in E1. tauto.
    - apply memb_In. apply memb_not_In in E1. tauto. }
  rewrite (G _ H1), (G _ H2), negb_involutive. reflexivity.
Qed.

Lemma residual_minimum_cut d s t z r : net_ok d -> paired d -> s <> t -> s < n_size d -> t < n_size d ->
  max_flow d s t z r ->
  exists R U, get_reachable d s r = Ok R /\ get_unreachable d s r = Ok U /\
    In s R /\ In t U /\ z = cut_capacity d R /\
    (forall R', NoDup R' -> incl R' (seq 0 (n_size d)) -> In s R' -> ~ In t R' ->
       (cut_capacity d R <= cut_capacity d R')%Z).
Proof.
  intros Hd Hp Hst Hs Ht Hm. pose proof Hm as [[Hlen Hrest] _].
  destruct (reachable_partition d r s Hd Hlen Hs) as (R & U & E1 & E2 & H1 & H2 & H3 & H4 & H5 & _ & _).
  exists R, U. split; auto. split; auto. split; auto.
  destruct (max_flow_cut d Hd Hp s t z r U Hst Hs Ht Hm H2 H5) as [Hin Hz].
  split; auto.
  assert (HC : z = cut_capacity d R).
  { rewrite Hz. apply cut_capacity_compl; auto. intros v Hv. rewrite H4, H5. tauto. }
  split; auto. intros R' Hn' Hi' Hs' Ht'. rewrite <- HC.
  set (U' := filter (fun v => negb (memb v R')) (seq 0 (n_size d))).
  assert (HU' : forall v, v < n_size d -> (In v U' <-> ~ In v R')).
  { intros v Hv. unfold U'. rewrite filter_In, in_seq, negb_true_iff, memb_not_In. split; [tauto|]. split; auto. lia. }
  rewrite <- (cut_capacity_compl d R' U' Hd HU').
  apply (weak_duality d Hp s t z r); [apply Hm|apply NoDup_filter, seq_NoDup|now apply HU'|].
  intros H. apply HU' in H; auto.
Qed.

Lemma maxflow_valid lib mf g s entries root comp st n :
  graph_ok g -> all_loops g -> var_entries g entries -> root_edge g s root comp ->
  (forall bm d sroot t, maxflow_network g s entries (var_map g) root comp = Ok (bm, d, sroot) ->
     length (snd (mf d sroot t)) = length (n_arcs d)) ->
  exists st' n' added,
    separate_maxflow lib mf g s entries (var_map g) root comp (st, n) = Ok (st', n') /\
    sp_rows st' = sp_rows st ++ added /\ n + length added <= n' /\
    Forall (fun row => forall t x, tour_from g root t -> incidence g t x -> row_sat x row) added.
Proof.
  intros Hg Hl He Hre Hlen.
  destruct (maxflow_rows lib mf g s entries root comp (st, n) Hg Hl He Hre Hlen)
    as ([st' n'] & added & E & (X1 & X2 & _) & L & _).
  exists st', n', added. auto.
Qed.

Lemma net_arcs_at ps : forall k cs i p c, nth_error ps i = Some p -> nth_error cs i = Some c ->
  nth_error (net_arcs k ps cs) (4 * i) = Some (mkArc (fst p) (snd p) c (k + 4 * i + 2)) /\
  nth_error (net_arcs k ps cs) (4 * i + 1) = Some (mkArc (snd p) (fst p) c (k + 4 * i + 3)) /\
  nth_error (net_arcs k ps cs) (4 * i + 2) = Some (mkArc (snd p) (fst p) 0 (k + 4 * i)) /\
  nth_error (net_arcs k ps cs) (4 * i + 3) = Some (mkArc (fst p) (snd p) 0 (k + 4 * i + 1)).
Proof.
  induction ps as [|q ps IH]; intros k [|c' cs] i p c Hp Hc; try (destruct i; discriminate).
  cbn [net_arcs]. destruct i as [|i].
  - cbn in Hp, Hc. inversion Hp; inversion Hc; subst. cbn. rewrite !Nat.add_0_r. auto.
  - cbn in Hp, Hc. destruct (IH (k + 4) cs i p c Hp Hc) as (H1 & H2 & H3 & H4).
    replace (4 * S i) with (4 + 4 * i) by lia.
    replace (4 + 4 * i + 1) with (4 + (4 * i + 1)) by lia.
    replace (4 + 4 * i + 2) with (4 + (4 * i + 2)) by lia.
    replace (4 + 4 * i + 3) with (4 + (4 * i + 3)) by lia.
    cbn [four_arcs app]. cbn [plus nth_error].
    change (nth_error (net_arcs (k + 4) ps cs) (4 * i) = Some (mkArc (fst p) (snd p) c (k + (4 + (4 * i)) + 2)) /\
      nth_error (net_arcs (k + 4) ps cs) (4 * i + 1) = Some (mkArc (snd p) (fst p) c (k + (4 + (4 * i)) + 3)) /\
      nth_error (net_arcs (k + 4) ps cs) (4 * i + 2) = Some (mkArc (snd p) (fst p) 0 (k + (4 + (4 * i)))) /\
      nth_error (net_arcs (k + 4) ps cs) (4 * i + 3) = Some (mkArc (fst p) (snd p) 0 (k + (4 + (4 * i)) + 1))).
    rewrite !Nat.add_assoc. auto.
Qed.

Lemma aligned_of g s comp :
  (forall e u v, joins g e u v -> u <> v -> is_var_positive s e = true -> In u comp /\ In v comp) ->
  aligned g s comp.
Proof.
  intros H e a b _ Hs E. unfold supb in Hs. apply andb_true_iff in Hs as [H1 H2].
  assert (Hj : joins g e a b) by now left. rewrite (loopb_joins _ _ _ _ Hj) in H1.
  apply negb_true_iff, Nat.eqb_neq in H1. eauto.
Qed.

Lemma capacities_aligned g s entries root comp : var_entries g entries -> root_edge g s root comp ->
  (forall e u v, joins g e u v -> u <> v -> is_var_positive s e = true -> In u comp /\ In v comp) ->
  exists es bm d sroot,
    get_solution_edges g s entries = Ok es /\
    maxflow_network g s entries (var_map g) root comp = Ok (bm, d, sroot) /\
    get_old_vertex bm sroot = Ok root /\ length (n_arcs d) = 4 * length es /\
    forall i e, nth_error es i = Some e -> exists u v a b,
      nth_error (ge g) e = Some (u, v) /\ get_old_vertex bm a = Ok u /\ get_old_vertex bm b = Ok v /\
      nth_error (n_arcs d) (4 * i) = Some (mkArc a b (capacity_of (s_num s e) (s_den s)) (4 * i + 2)) /\
      nth_error (n_arcs d) (4 * i + 1) = Some (mkArc b a (capacity_of (s_num s e) (s_den s)) (4 * i + 3)) /\
      nth_error (n_arcs d) (4 * i + 2) = Some (mkArc b a 0 (4 * i)) /\
      nth_error (n_arcs d) (4 * i + 3) = Some (mkArc a b 0 (4 * i + 1)).
Proof.
  intros He Hre Hal. apply aligned_of in Hal.
  destruct (network_ok g s entries root comp He Hre) as (es & ps & rp & out & labels & d & sroot & Ees & EN & HN).
  exists es, (bm_of labels), d, sroot. split; auto. split; auto.
  assert (Harcs := aligned_arcs g s root comp es ps rp out labels d sroot HN Hal).
  assert (Hrp := aligned_rp g s root comp es ps rp out labels d sroot HN Hal).
  destruct HN as [A B C D F G H I].
  split; [now apply get_old_ok|].
  assert (Lo : length out = length es).
  { rewrite <- (Forall2_length_eq _ _ _ G), Hrp, <- (Forall2_length_eq _ _ _ B). reflexivity. }
  split. { rewrite Harcs, net_arcs_length; [lia|]. rewrite map_length. lia. }
  intros i e Ei. rewrite Hrp in G.
  destruct (Forall2_nth _ _ _ i e (Forall2_flip _ _ _ B) Ei) as ([u v] & Ep & Eg).
  destruct (Forall2_nth _ _ _ i (u, v) (Forall2_flip _ _ _ G) Ep) as ([a b] & Eo & Ha & Hb).
  exists u, v, a, b. split; auto. split; [now apply get_old_ok|]. split; [now apply get_old_ok|].
  rewrite Harcs.
  apply (net_arcs_at out 0 (map (capv s) es) i (a, b) (capv s e) Eo).
  rewrite nth_error_map, Ei. reflexivity.
Qed.

Lemma capacity_precision num den : (0 < den)%Z -> (0 <= num)%Z ->
  (1000 * (den * capacity_of num den) <= 1000000000 * num + den)%Z /\
  (1000000 * num <= den * capacity_of num den + den)%Z /\
  (forall k, num * 1000000 = k * den -> den * capacity_of num den = 1000000 * num)%Z.
Proof.
  intros H1 H2. destruct (capacity_error num den H1 H2). split; auto. split; auto.
  intros k. now apply capacity_exact.
Qed.

Section Found.
Context (lib : scip_lib) (mf : flow_lib) (g : graph) (s : sol) (entries : list (nat * nat)) (ds : list lin)
  (root : nat) (comp : list nat)
  (Hg : graph_ok g) (Hp : no_parallel g) (Hl : all_loops g) (He : var_entries g entries)
  (Hds : degree_constraints g = Ok ds) (Hdr : Forall (row_sat s) ds)
  (Hden : (0 < s_den s)%Z) (Hnn : forall e, e < length (ge g) -> (0 <= s_num s e)%Z)
  (Hre : root_edge g s root comp)
  (Hal : forall e u v, joins g e u v -> u <> v -> is_var_positive s e = true -> In u comp /\ In v comp)
  (Hmf : forall bm d sroot t, maxflow_network g s entries (var_map g) root comp = Ok (bm, d, sroot) ->
     length (snd (mf d sroot t)) = length (n_arcs d) /\
     (t < n_size d -> t <> sroot -> max_flow d sroot t (fst (mf d sroot t)) (snd (mf d sroot t)))).

Lemma small_cuts_found st n : exists st' n' added,
    separate_maxflow lib mf g s entries (var_map g) root comp (st, n) = Ok (st', n') /\
    sp_rows st' = sp_rows st ++ added /\
    (forall row, In row added -> exists S v l,
       v < gn g /\ (In root S <-> ~ In v S) /\ joins g l v v /\
       (row_sat s row <-> (2 * s_num s l <= cut_value g (s_num s) S)%Z) /\
       (1000000 * cut_value g (s_num s) S + s_den s <=
        2000000 * s_den s + s_den s * Z.of_nat (length (ge g)))%Z) /\
    (forall e v w S0, joins g e v w -> v <> w -> is_var_positive s e = true ->
       In v S0 -> ~ In root S0 ->
       (1000000000 * cut_value g (s_num s) S0 + s_den s * Z.of_nat (length (ge g))
          < 2000000000 * s_den s)%Z ->
       exists S l row, (In root S <-> ~ In v S) /\ joins g l v v /\
         (row_sat s row <-> (2 * s_num s l <= cut_value g (s_num s) S)%Z) /\
         (1000000 * cut_value g (s_num s) S + s_den s <=
          2000000 * s_den s + s_den s * Z.of_nat (length (ge g)))%Z /\
         (efficacious lib row = true -> In row added)).
Proof.
  assert (Hdeg := degree_rows_frac g s ds Hp Hl Hg Hds Hdr).
  destruct (maxflow_rows lib mf g s entries root comp (st, n) Hg Hl He Hre (fun bm d sr t E => proj1 (Hmf bm d sr t E)))
    as ([st' n'] & added & E & (X1 & X2 & _) & L & K).
  exists st', n', added. split; auto. split; auto.
  destruct (K (s_den s) (s_den s) (errors_general g s (conj Hden Hnn)) Hden (aligned_of g s comp Hal)
              (fun bm d sr t E => proj2 (Hmf bm d sr t E))) as [K1 K2].
  split.
  - intros row Hrow. destruct (K1 row Hrow) as (S & v & H1 & H2 & H3 & H4 & H5 & H6).
    destruct (Hl v H1) as [l Hj]. exists S, v, l. auto 10.
  - intros e v w S0 Hj Hvw Hpos Hv Hr Hcut.
    destruct (K2 e v w S0 Hj Hvw Hpos Hv Hr Hcut) as (S & row & H1 & H2 & H3 & H4 & H5 & H6 & H7).
    destruct (Hl v H1) as [l Hj']. exists S, l, row. auto 10.
Qed.

Context (Hk : forall e, e < length (ge g) -> exists k, (s_num s e * 1000000 = k * s_den s)%Z).

Lemma exact_rows st : exists st' added,
    separate_maxflow lib mf g s entries (var_map g) root comp st = Ok st' /\
    extends g root added (fst st) (fst st') /\ snd st + length added <= snd st' /\
    (forall row, In row added -> exists S v l,
       v < gn g /\ (In root S <-> ~ In v S) /\ joins g l v v /\
       (cut_value g (s_num s) S < 2 * s_den s)%Z /\
       (row_sat s row <-> (2 * s_num s l <= cut_value g (s_num s) S)%Z)) /\
    (forall v l S0, joins g l v v -> s_num s l = s_den s -> In v S0 -> ~ In root S0 ->
       (cut_value g (s_num s) S0 < 2 * s_den s)%Z ->
       exists row, ~ row_sat s row /\ (efficacious lib row = true -> In row added)).
Proof.
  assert (Hdeg := degree_rows_frac g s ds Hp Hl Hg Hds Hdr).
  destruct (maxflow_rows lib mf g s entries root comp st Hg Hl He Hre (fun bm d sr t E => proj1 (Hmf bm d sr t E)))
    as (st' & added & E & X & L & K).
  exists st', added. split; auto. split; auto. split; auto.
  destruct (K 0%Z 0%Z (errors_exact g s (conj Hden Hnn) Hk) Hden (aligned_of g s comp Hal)
              (fun bm d sr t E => proj2 (Hmf bm d sr t E))) as [K1 K2].
  split.
  - intros row Hrow. destruct (K1 row Hrow) as (S & v & H1 & H2 & H3 & H4 & H5 & H6).
    destruct (Hl v H1) as [l Hj]. exists S, v, l. assert (cut_value g (s_num s) S < 2 * s_den s)%Z by lia. auto 10.
  - intros v l S0 Hj Hy Hv Hr Hcut.
    destruct (positive_edge g s v l Hdeg Hj Hden Hk) as (e & w & Hj' & Hvw & Hpos); [lia|].
    destruct (K2 e v w S0 Hj' Hvw Hpos Hv Hr) as (S & row & H1 & H2 & H3 & H4 & H5 & H6 & H7); [lia|].
    exists row. split; auto. intros Hsat. apply (H5 Hp Hdeg l Hj) in Hsat. lia.
Qed.
End Found.

Lemma exact_for_full lib mf g s entries ds root comp st n :
  graph_ok g -> no_parallel g -> all_loops g -> var_entries g entries ->
  degree_constraints g = Ok ds -> Forall (row_sat s) ds ->
  (0 < s_den s)%Z -> (forall e, e < length (ge g) -> (0 <= s_num s e)%Z) ->
  (forall e, e < length (ge g) -> exists k, (s_num s e * 1000000 = k * s_den s)%Z) ->
  root_edge g s root comp ->
  (forall e u v, joins g e u v -> u <> v -> is_var_positive s e = true -> In u comp /\ In v comp) ->
  (forall bm d sroot t, maxflow_network g s entries (var_map g) root comp = Ok (bm, d, sroot) ->
     length (snd (mf d sroot t)) = length (n_arcs d) /\
     (t < n_size d -> t <> sroot -> max_flow d sroot t (fst (mf d sroot t)) (snd (mf d sroot t)))) ->
  exists st' n' added,
    separate_maxflow lib mf g s entries (var_map g) root comp (st, n) = Ok (st', n') /\
    sp_rows st' = sp_rows st ++ added /\
    (forall row, In row added -> exists S v l,
       v < gn g /\ (In root S <-> ~ In v S) /\ joins g l v v /\
       (cut_value g (s_num s) S < 2 * s_den s)%Z /\
       (row_sat s row <-> (2 * s_num s l <= cut_value g (s_num s) S)%Z)) /\
    (forall v l S0, joins g l v v -> s_num s l = s_den s -> In v S0 -> ~ In root S0 ->
       (cut_value g (s_num s) S0 < 2 * s_den s)%Z ->
       exists row, ~ row_sat s row /\ (efficacious lib row = true -> In row added)).
Proof.
  intros Hg Hp Hl He Hds Hdr Hden Hnn Hk Hre Hal Hmf.
  destruct (exact_rows lib mf g s entries ds root comp Hg Hp Hl He Hds Hdr Hden Hnn Hre Hal Hmf Hk (st, n))
    as ([st' n'] & added & E & (X1 & X2 & _) & _ & K1 & K2).
  exists st', n', added. auto.
Qed.

Lemma root_edge_comp g s root comp : (forall v, In v comp <-> connected (filter_positive g s) root v) ->
  (exists e v, joins g e root v /\ root <> v /\ is_var_positive s e = true) -> root_edge g s root comp.
Proof.
  intros Hc (e & v & Hj & Hne & Hpos). exists e, v. split; auto. split; auto. split; auto.
  split; apply Hc; [constructor|]. apply connected_edge, support_edge. eauto.
Qed.

Lemma separate_subtour_valid lib mf g s entries root disjoint maxflow st :
  graph_ok g -> all_loops g -> var_entries g entries -> (Z.of_nat (gn g) <= int_max)%Z -> root < gn g ->
  (maxflow = true -> exists e v, joins g e root v /\ root <> v /\ is_var_positive s e = true) ->
  (forall comp bm d sroot t, maxflow_network g s entries (var_map g) root comp = Ok (bm, d, sroot) ->
     length (snd (mf d sroot t)) = length (n_arcs d)) ->
  exists st' nd nf added,
    separate_subtour lib mf g s entries (var_map g) root disjoint maxflow st = Ok (st', nd, nf) /\
    sp_rows st' = sp_rows st ++ added /\ length added <= nd + nf /\
    (disjoint = false -> nd = 0) /\ (maxflow = false -> nf = 0) /\
    Forall (fun row => forall t x, tour_from g root t -> incidence g t x -> row_sat x row) added.
Proof.
  intros Hg Hl He Hmax Hr Hre Hlen.
  destruct (disjoint_rows lib g s root st Hg Hl Hmax Hr) as (cvs & rid & comp & st1 & n1 & ad1 & E1 & Ev & Hc & E2 & X2 & L2).
  unfold separate_subtour. rewrite E1. cbn [bind].
  assert (A : exists st1 nd ad1, (if disjoint then separate_disjoint_tour lib g (var_map g) root cvs rid (st, 0)
                 else Ok (st, 0)) = Ok (st1, nd) /\ extends g root ad1 st st1 /\ length ad1 <= nd /\
                 (disjoint = false -> nd = 0)).
  { destruct disjoint.
    - exists st1, n1, ad1. repeat split; auto; try apply X2. discriminate.
    - exists st, 0, []. split; auto. split; [apply extends_refl|]. cbn. auto. }
  destruct A as (st2 & nd & ad2 & E3 & X3 & L3 & D3). rewrite E3. cbn [bind].
  assert (B : exists st3 nf ad3, (if maxflow then do comp <- vget cvs rid;
                        separate_maxflow lib mf g s entries (var_map g) root comp (st2, 0)
                   else Ok (st2, 0)) = Ok (st3, nf) /\ extends g root ad3 st2 st3 /\ length ad3 <= nf /\
                   (maxflow = false -> nf = 0)).
  { destruct maxflow.
    - rewrite Ev. cbn [bind].
      destruct (maxflow_rows lib mf g s entries root comp (st2, 0) Hg Hl He (root_edge_comp g s root comp Hc (Hre eq_refl))
        (Hlen comp)) as ([st3 nf] & ad3 & E & X & L & _).
      exists st3, nf, ad3. split; auto. split; auto. split; auto. discriminate.
    - exists st2, 0, []. split; auto. split; [apply extends_refl|]. cbn. auto. }
  destruct B as (st3 & nf & ad3 & E4 & X4 & L4 & D4). rewrite E4. cbn [bind].
  destruct (extends_trans g root _ _ _ _ _ X3 X4) as (Y1 & Y2 & _).
  exists st3, nd, nf, (ad2 ++ ad3). split; auto. split; auto. split; [rewrite app_length; lia|]. auto.
Qed.

Lemma connected_points_separated lib mf g s entries ds rl root disjoint st :
  graph_ok g -> no_parallel g -> all_loops g -> var_entries g entries ->
  (Z.of_nat (gn g) <= int_max)%Z -> root < gn g ->
  degree_constraints g = Ok ds -> Forall (row_sat s) ds ->
  joins g rl root root -> row_sat s (root_constraint rl) ->
  (0 < s_den s)%Z -> (forall e, e < length (ge g) -> (0 <= s_num s e)%Z) ->
  (forall e, e < length (ge g) -> exists k, (s_num s e * 1000000 = k * s_den s)%Z) ->
  (forall e u v, joins g e u v -> u <> v -> is_var_positive s e = true ->
     connected (filter_positive g s) root u) ->
  (forall comp bm d sroot t,
     (forall v, In v comp <-> connected (filter_positive g s) root v) ->
     maxflow_network g s entries (var_map g) root comp = Ok (bm, d, sroot) ->
     length (snd (mf d sroot t)) = length (n_arcs d) /\
     (t < n_size d -> t <> sroot -> max_flow d sroot t (fst (mf d sroot t)) (snd (mf d sroot t)))) ->
  (forall row, ~ row_sat s row -> efficacious lib row = true) ->
  (exists v l S0, joins g l v v /\ s_num s l = s_den s /\ In v S0 /\ ~ In root S0 /\
     (cut_value g (s_num s) S0 < 2 * s_den s)%Z) ->
  exists st' nd nf added,
    separate_subtour lib mf g s entries (var_map g) root disjoint true st = Ok (st', nd, nf) /\
    sp_rows st' = sp_rows st ++ added /\
    Forall (fun row => forall t x, tour_from g root t -> incidence g t x -> row_sat x row) added /\
    Exists (fun row => ~ row_sat s row) added.
Proof.
  intros Hg Hp Hl He Hmax Hr Hds Hdr Hrl Hroot Hden Hnn Hk Hcon Hmf Heff (v & l & S0 & Hj & Hy & Hv & Hrs & Hcut).
  destruct (disjoint_rows lib g s root st Hg Hl Hmax Hr) as (cvs & rid & comp & st1 & n1 & ad1 & E1 & Ev & Hc & E2 & X2 & L2).
  unfold separate_subtour. rewrite E1. cbn [bind].
  assert (A : exists st1 nd ad1, (if disjoint then separate_disjoint_tour lib g (var_map g) root cvs rid (st, 0)
                 else Ok (st, 0)) = Ok (st1, nd) /\ extends g root ad1 st st1).
  { destruct disjoint.
    - exists st1, n1, ad1. auto.
    - exists st, 0, []. split; auto. apply extends_refl. }
  destruct A as (st2 & nd & ad2 & E3 & X3). rewrite E3. cbn [bind]. rewrite Ev. cbn [bind].
  assert (Hdeg := degree_rows_frac g s ds Hp Hl Hg Hds Hdr).
  assert (Hry : s_num s rl = s_den s) by (now apply root_row_value).
  destruct (positive_edge g s root rl Hdeg Hrl Hden Hk) as (e0 & w0 & Hj0 & Hne0 & Hpos0); [lia|].
  assert (Hre : root_edge g s root comp) by (apply root_edge_comp; eauto).
  assert (Hal : forall e u v, joins g e u v -> u <> v -> is_var_positive s e = true -> In u comp /\ In v comp).
  { intros e u w Hju Hne Hpos. split; apply Hc; eapply Hcon; eauto using joins_sym. }
  destruct (exact_rows lib mf g s entries ds root comp Hg Hp Hl He Hds Hdr Hden Hnn Hre Hal
    (fun bm d sr t => Hmf comp bm d sr t Hc) Hk (st2, 0)) as ([st3 nf] & ad3 & E & X & L & _ & K).
  rewrite E. cbn [bind].
  destruct (extends_trans g root _ _ _ _ _ X3 X) as (Y1 & Y2 & _).
  exists st3, nd, nf, (ad2 ++ ad3). split; auto. split; auto. split; auto.
  destruct (K v l S0 Hj Hy Hv Hrs Hcut) as (row & Hns & Hin).
  apply Exists_exists. exists row. split; auto. apply in_or_app. right. apply Hin, Heff, Hns.
Qed.

(** ** checks used in the examples *)
Lemma network_comp_ext g s entries m root c1 c2 : (forall v, In v c1 <-> In v c2) ->
  maxflow_network g s entries m root c1 = maxflow_network g s entries m root c2.
Proof.
  intros H. unfold maxflow_network.
  assert (G : forall v, memb v c1 = memb v c2).
  { intros v. destruct (memb v c2) eqn:E.
    - apply memb_In, H. now apply memb_In.
    - apply memb_not_In. rewrite H. now apply memb_not_In. }
  destruct (get_solution_edges g s entries); cbn [bind]; auto.
  destruct (get_capacity_vector g s entries m); cbn [bind]; auto.
  destruct (get_vertex_pairs g a); cbn [bind]; auto.
  cbv zeta. erewrite filter_ext; [reflexivity|]. intros p. now rewrite !G.
Qed.

(** the point whose values on the edges are [l / den] *)
Definition list_sol (den : Z) (l : list Z) : sol := mkSol den (fun i => nth i l 0%Z).
(** the variable map in the order of the edge numbers *)
Definition id_entries (g : graph) : list (nat * nat) := map (fun e => (e, e)) (seq 0 (length (ge g))).

Lemma id_entries_ok g : var_entries g (id_entries g).
Proof. apply Permutation_refl. Qed.

Lemma forall_edges (P : nat -> Prop) (b : nat -> bool) n : (forall e, b e = true -> P e) ->
  forallb b (seq 0 n) = true -> forall e, e < n -> P e.
Proof. intros Hb H e He. rewrite forallb_forall in H. apply Hb, H, in_seq. lia. Qed.
