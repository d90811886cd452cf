(** * P_SuurInit: the start of Suurballe's algorithm *)
From Coq Require Import Sorted Permutation.
From Verif Require Import Base P_Base M_Python M_PyCycle M_Suurballe Spec_Python Spec_Suurballe P_Python P_PyCycle P_Suurballe P_TreePath P_SuurState P_SuurLabel P_SuurLoop.
Open Scope nat_scope.

(** ** Inserting an edge into the sorted lists of incident edges *)
Lemma insert_incident_ok (d : list (nat * Z)) (pre : nat -> Z) x y e l :
  (forall f, In f l -> dget d (other x f) = Some (pre (other x f))) -> dget d y = Some (pre y) -> other x e = y ->
  StronglySorted (fun e f => (pre (other x e) <= pre (other x f))%Z) l ->
  exists l', insert_incident d x y e l = Ok l' /\ Permutation (e :: l) l' /\
    StronglySorted (fun e f => (pre (other x e) <= pre (other x f))%Z) l'.
Proof.
  intros K KY OE S. induction l as [|f l IH]; cbn [insert_incident].
  - exists [e]. split; [reflexivity|]. split; [apply Permutation_refl|]. repeat constructor.
  - apply StronglySorted_inv in S. destruct S as (S & FA). fold (other x f).
    unfold dfetch. rewrite (K f) by (left; reflexivity). cbn [bind]. rewrite KY. cbn [bind].
    rewrite Z.gtb_ltb. destruct (Z.ltb_spec (pre y) (pre (other x f))) as [L|L].
    + exists (e :: f :: l). split; [reflexivity|]. split; [apply Permutation_refl|].
      constructor; [constructor; assumption|]. rewrite OE. constructor; [lia|].
      eapply Forall_impl; [|exact FA]. intros g G. cbn in G. lia.
    + destruct IH as (l' & E & P & S'); [intros g I; apply K; right; exact I|exact S|].
      rewrite E. cbn [bind]. exists (f :: l'). split; [reflexivity|]. split.
      * eapply Permutation_trans; [apply perm_swap|]. constructor. exact P.
      * constructor; [exact S'|]. rewrite Forall_forall in *. intros g G. apply (Permutation_in _ (Permutation_sym P)) in G.
        destruct G as [<-|G]; [rewrite OE; lia|apply FA; exact G].
Qed.

Section Incident.
Variable (ok : nat -> Prop) (d : list (nat * Z)) (pre : nat -> Z).
Hypothesis PRE : forall x, ok x -> dget d x = Some (pre x).

Definition inc_ok (R : list (nat * nat)) (inc : list (nat * list (nat * nat))) : Prop :=
  forall x, ok x -> exists l, dget inc x = Some l /\ inc_list pre R x l.

Lemma add_edges_incident_ok R u w inc : ok u -> ok w -> u <> w -> (forall e, In e R -> ok (fst e) /\ ok (snd e)) ->
  ~ In (u, w) R -> inc_ok R inc ->
  exists inc', add_edges_incident_to_endpoints d u w inc = Ok inc' /\ inc_ok (R ++ [(u, w)]) inc'.
Proof.
  intros OU OW NE RO NI IO. unfold add_edges_incident_to_endpoints.
  assert (OTH : forall x l, inc_list pre R x l -> forall f, In f l -> dget d (other x f) = Some (pre (other x f))).
  { intros x l (A & _) f I. apply A in I. destruct I as (I & J). apply PRE. destruct (RO f I). unfold other.
    destruct (Nat.eqb (fst f) x); assumption. }
  assert (NEW : forall x y l l', inc_list pre R x l -> other x (u, w) = y -> (u = x \/ w = x) -> Permutation ((u, w) :: l) l' ->
     StronglySorted (fun e f => (pre (other x e) <= pre (other x f))%Z) l' -> inc_list pre (R ++ [(u, w)]) x l').
  { intros x y l l' (A & B & D) OE INC P S. split; [|split; [|exact S]].
    - intros e. rewrite in_app_iff. split.
      + intros I. apply (Permutation_in _ (Permutation_sym P)) in I. destruct I as [<-|I]; [cbn; auto|]. apply A in I. tauto.
      + intros ([I|[<-|[]]] & J); apply (Permutation_in _ P); [right; apply A; auto|left; reflexivity].
    - apply (Permutation_NoDup P). constructor; [|exact B]. intros I. apply A in I. tauto. }
  destruct (IO u OU) as (lu & LU & IU). destruct (IO w OW) as (lw & LW & IW).
  unfold dfetch at 1. rewrite LU. cbn [bind].
  assert (EU : other u (u, w) = w) by (unfold other; cbn; rewrite Nat.eqb_refl; reflexivity).
  assert (EW : other w (u, w) = u) by (unfold other; cbn; destruct (Nat.eqb_spec u w); [congruence|reflexivity]).
  destruct (insert_incident_ok d pre u w (u, w) lu) as (lu' & E1 & P1 & S1);
    [apply OTH; exact IU|apply PRE; exact OW|exact EU|apply IU|].
  rewrite E1. cbn [bind]. unfold dfetch at 1. rewrite dget_dset. destruct (Nat.eqb_spec w u) as [Q|_]; [congruence|].
  rewrite LW. cbn [bind].
  destruct (insert_incident_ok d pre w u (u, w) lw) as (lw' & E2 & P2 & S2);
    [apply OTH; exact IW|apply PRE; exact OU|exact EW|apply IW|].
  rewrite E2. cbn [bind]. eexists. split; [reflexivity|]. intros x OX. rewrite !dget_dset.
  destruct (Nat.eqb_spec x w) as [->|N1].
  - exists lw'. split; [reflexivity|]. eapply NEW; eauto.
  - destruct (Nat.eqb_spec x u) as [->|N2].
    + exists lu'. split; [reflexivity|]. eapply NEW; eauto.
    + destruct (IO x OX) as (l & L & A & B & D). exists l. split; [exact L|]. split; [|auto].
      intros e. rewrite A, in_app_iff. cbn. split; [tauto|]. intros ([I|[<-|[]]] & J); [auto|]. cbn in J. destruct J; congruence.
Qed.

Lemma incident_loop (T : nxtree) es : forall R inc, inc_ok R inc -> (forall e, In e R -> ok (fst e) /\ ok (snd e)) ->
  (forall e, In e es -> ok (fst e) /\ ok (snd e) /\ fst e <> snd e) -> NoDup es -> (forall e, In e es -> ~ In e R) ->
  exists inc', foldM (fun inc '(u, v) =>
      if has_edge T u v then Ok inc else add_edges_incident_to_endpoints d u v inc) es inc = Ok inc' /\
    inc_ok (R ++ filter (fun e => negb (has_edge T (fst e) (snd e))) es) inc'.
Proof.
  induction es as [|(u, w) es IH]; intros R inc IO RO HE ND DJ; cbn [foldM filter].
  - exists inc. split; [reflexivity|]. rewrite app_nil_r. exact IO.
  - inversion ND; subst. destruct (HE (u, w) (or_introl eq_refl)) as (OU & OW & NE). cbn in OU, OW, NE.
    cbn [fst snd]. destruct (has_edge T u w) eqn:H; cbn [negb].
    + apply IH; auto; intros e I; [apply HE|apply DJ]; right; exact I.
    + destruct (add_edges_incident_ok R u w inc) as (inc1 & E1 & I1); auto.
      { apply DJ. left. reflexivity. }
      rewrite E1. cbn [bind]. destruct (IH (R ++ [(u, w)]) inc1) as (inc' & E' & I'); auto.
      * intros e I. apply in_app_iff in I. destruct I as [I|[<-|[]]]; [apply RO; exact I|cbn; auto].
      * intros e I. apply HE. right. exact I.
      * intros e I J. apply in_app_iff in J. destruct J as [J|[<-|[]]]; [apply (DJ e); [right; exact I|exact J]|contradiction].
      * exists inc'. split; [exact E'|]. rewrite <- app_assoc in I'. exact I'.
Qed.
End Incident.

(** ** Everything the invariant of the main loop rests on *)
Record env (TT : stree) (pre post : nat -> Z) (R0 : list (nat * nat)) : Prop := mkEnv {
  e_RT : rooted_tree (t_edges TT) (t_source TT);
  e_PRE : forall v, descends (t_edges TT) (t_source TT) v -> dget (t_pre TT) v = Some (pre v);
  e_POST : forall v, descends (t_edges TT) (t_source TT) v -> dget (t_post TT) v = Some (post v);
  e_ANC : forall a d, descends (t_edges TT) (t_source TT) a -> descends (t_edges TT) (t_source TT) d ->
    (pre a <= pre d /\ post d <= post a)%Z <-> descends (t_edges TT) a d;
  e_PINJ : forall a b, descends (t_edges TT) (t_source TT) a -> descends (t_edges TT) (t_source TT) b -> pre a = pre b -> a = b;
  e_NODES : forall x, descends (t_edges TT) (t_source TT) x -> In x (t_nodes TT);
  e_R0 : forall e, In e R0 -> descends (t_edges TT) (t_source TT) (fst e) /\ descends (t_edges TT) (t_source TT) (snd e);
  e_CNN : forall u w c, In (u, w) R0 -> C TT u w c -> (0 <= c)%Z;
  e_SPLIT : forall u v w, In (u, v) R0 -> In (v, w) R0 -> v <> t_source TT -> w = t_source TT
}.

Lemma tree_nodes_ok T dist x : In x (tree_nodes T dist) <-> (exists e, In e T /\ (x = fst e \/ x = snd e)) \/ In x (map fst dist).
Proof.
  unfold tree_nodes. assert (X : forall l acc, In x (fold_left (fun l v => if memb v l then l else l ++ [v]) l acc) <-> In x acc \/ In x l).
  { induction l as [|y l IH]; intros acc; cbn [fold_left]; [cbn; tauto|]. rewrite IH. cbn.
    destruct (memb y acc) eqn:M.
    - apply memb_In in M. split; [tauto|]. intros [A|[->|A]]; auto.
    - rewrite in_app_iff. cbn. tauto. }
  rewrite X, in_app_iff, in_flat_map. cbn. split.
  - intros [[]|[(e & I & [J|[J|[]]])|J]]; [left; exists e; auto|left; exists e; auto|right; exact J].
  - intros [(e & I & J)|J]; right; [left|right; exact J]. exists e. split; [exact I|]. destruct J as [-> | ->]; auto.
Qed.

Lemma dedges_In G u w : In (u, w) (dedges G) <-> exists c, arc G u w c.
Proof.
  unfold dedges, arc. rewrite in_flat_map. split.
  - intros ((x & l) & I & J). apply in_map_iff in J. destruct J as ((y & c) & E & J). cbn in E. inversion E; subst.
    exists c, l. auto.
  - intros (c & l & I & J). exists (u, l). split; [exact I|]. apply in_map_iff. exists (w, c). auto.
Qed.

Lemma dedges_NoDup G : NoDup (map fst G) -> (forall u l, In (u, l) G -> NoDup (map fst l)) -> NoDup (dedges G).
Proof.
  unfold dedges. induction G as [|(u, l) G IH]; intros N K; [constructor|]. cbn [flat_map]. inversion N; subst.
  apply NoDup_app_iff. split; [|split].
  - rewrite <- (map_map fst (fun x => (u, x))). apply FinFun.Injective_map_NoDup; [intros a b Q; congruence|].
    apply (K u). left. reflexivity.
  - apply IH; [assumption|]. intros v m I. apply (K v). right. exact I.
  - intros e I J. apply in_map_iff in I. destruct I as (x & <- & I). apply in_flat_map in J. destruct J as ((v & m) & J1 & J2).
    apply in_map_iff in J2. destruct J2 as (y & E & J2). inversion E; subst. apply H1. apply in_map_iff. exists (u, m). auto.
Qed.

Lemma dedges_sub_length G keep : length (dedges (dsubgraph G keep)) <= length (dedges G).
Proof.
  unfold dedges, dsubgraph. induction G as [|(u, l) G IH]; [apply le_n|]. cbn [filter flat_map].
  rewrite app_length, map_length. destruct (keep u); [|lia]. cbn [map flat_map]. rewrite app_length, map_length.
  assert (length (filter (fun e => keep (fst e)) l) <= length l); [|lia].
  clear. induction l as [|a l IH]; [apply le_n|]. cbn. destruct (keep (fst a)); cbn; lia.
Qed.

Lemma predecessors_ok T root x p : rooted_tree T root -> In (p, x) T -> exists r, predecessors T x = p :: r.
Proof.
  intros RT I. unfold predecessors. destruct (filter (fun e => Nat.eqb (snd e) x) T) as [|(q, y) r] eqn:E.
  - assert (J : In (p, x) []) by (rewrite <- E; apply filter_In; cbn; rewrite Nat.eqb_refl; auto). destruct J.
  - assert (J : In (q, y) (filter (fun e => Nat.eqb (snd e) x) T)) by (rewrite E; left; reflexivity).
    apply filter_In in J. cbn in J. destruct J as (J & K). apply Nat.eqb_eq in K. subst y.
    rewrite (one_parent T root RT _ _ _ J I). cbn. eauto.
Qed.

(** The start state satisfies the invariant. *)
Lemma suurballe_init_ok depth G s dist paths : directed G -> (forall u w, ~ arc G u u w) -> In s (map fst G) -> split_like G s ->
  shortest_distances G s dist -> shortest_paths G s dist paths -> paths_within depth paths ->
  exists TT st pre post R0 G', suurballe_init depth G s dist paths = Ok (TT, st) /\ env TT pre post R0 /\
    inv TT pre R0 st R0 [] /\ length (s_heap st) + length R0 <= length dist + length (dedges G) /\
    t_source TT = s /\ t_dist TT = dist /\
    adjust_edge_cost_for_graph (dsubgraph G (fun v => memb v (map fst dist))) dist = Ok G' /\
    (forall v, descends (t_edges TT) s v <-> In v (map fst dist)) /\
    (forall u w c, C TT u w c <-> arc G' u w c) /\
    (forall u w, In (u, w) (t_edges TT) -> arc G' u w 0%Z) /\
    (forall u w, In (u, w) R0 <-> (exists c, arc G' u w c) /\ ~ In (u, w) (t_edges TT)).
Proof.
  intros DG NL SG SPL SD SP DEP.
  destruct (shortest_tree G s dist paths SD SP) as (T & ET & RT & RE & TP).
  destruct (adjusted_ok G s dist DG SD) as (G' & EG & KG & PO).
  assert (ND : NoDup (map fst dist)) by apply SD.
  pose proof (chain_path G s dist paths T depth SP DEP TP) as LT.
  destruct (numbering_ok T s RT depth (tree_nodes T dist) LT) as (o1 & pre & o2 & post & EP & EQ & (NO1 & IO1) & (NO2 & IO2) & _ & NUM & ANC).
  set (fpre := fun v => Z.of_nat (find_pos v o1)). set (fpost := fun v => Z.of_nat (find_pos v o2)).
  set (keep := fun v => memb v (map fst dist)) in *. set (sub := dsubgraph G keep) in *.
  assert (KEEP : forall v, keep v = true <-> descends T s v) by (intros v; rewrite RE; apply memb_In).
  assert (SUBD : NoDup (map fst sub) /\ forall u l, In (u, l) sub -> NoDup (map fst l)).
  { destruct DG as (D1 & D2 & _). unfold sub, dsubgraph. split.
    - rewrite map_map. rewrite (map_ext _ fst) by (intros (a & b); reflexivity). clear - D1. induction G as [|(v & l) G IH]; [constructor|].
      cbn in *. inversion D1; subst. destruct (keep v); [|auto]. cbn. constructor; [|auto]. intros I. apply H1.
      apply in_map_iff in I. destruct I as (x & <- & I). apply filter_In in I. apply in_map. tauto.
    - intros u l I. apply in_map_iff in I. destruct I as ((v & m) & E & I). inversion E; subst. apply filter_In in I.
      destruct I as (I & _). pose proof (D2 _ _ I) as N. clear - N. induction m as [|a m IH]; [constructor|]. cbn in *.
      inversion N; subst. destruct (keep (fst a)); [|auto]. cbn. constructor; [|auto]. intros J. apply H1.
      apply in_map_iff in J. destruct J as (x & <- & J). apply filter_In in J. apply in_map. tauto. }
  assert (ESUB : forall u w, In (u, w) (dedges sub) <-> (exists c, arc G u w c) /\ descends T s u /\ descends T s w).
  { intros u w. rewrite dedges_In. split.
    - intros (c & A). apply dsub_arc in A. rewrite !KEEP in A. split; [exists c; tauto|tauto].
    - intros ((c & A) & U & W). exists c. apply dsub_arc. rewrite !KEEP. auto. }
  assert (KEYS : forall x, descends T s x -> In x (map fst sub)).
  { intros x RX. assert (XG : In x (map fst G)).
    { destruct (Nat.eq_dec x s) as [->|N]; [exact SG|]. inversion RX as [|p c RP I]; subst; [congruence|].
      destruct (TP p x I) as (q & U & V). destruct SP as (_ & _ & W & _).
      destruct (W _ _ U) as (du & EU & WU). destruct (W _ _ V) as (dv & EV & WV).
      destruct (zero_tree_arc G s dist q p x du dv DG SD EU EV WU WV) as (c & A & _). destruct DG as (_ & _ & D3). apply (D3 _ _ _ A). }
    apply in_map_iff in XG. destruct XG as ((y & l) & <- & I). cbn in *. unfold sub, dsubgraph. rewrite map_map. apply in_map_iff.
    exists (y, l). split; [reflexivity|]. apply filter_In. split; [exact I|]. apply KEEP. exact RX. }
  assert (PRE : forall v, descends T s v -> dget pre v = Some (fpre v)) by (intros v RV; apply NUM; exact RV).
  assert (POST : forall v, descends T s v -> dget post v = Some (fpost v)) by (intros v RV; apply NUM; exact RV).
  set (R0 := filter (fun e => negb (has_edge T (fst e) (snd e))) (dedges sub)).
  destruct (incident_loop (descends T s) pre fpre PRE T (dedges sub) [] (map (fun v => (v, [])) (map fst sub))) as (inc & EI & INC).
  { intros x RX. destruct (dget_key (map (fun v => (v, @nil (nat * nat))) (map fst sub)) x) as (l & L).
    - rewrite map_map. cbn. rewrite map_id. apply KEYS. exact RX.
    - exists l. split; [exact L|]. apply dget_In in L. apply in_map_iff in L. destruct L as (y & E & _). inversion E; subst.
      split; [cbn; tauto|]. split; constructor. }
  { intros e []. }
  { intros (u & w) I. apply ESUB in I. destruct I as ((c & A) & U & W). cbn. split; [exact U|]. split; [exact W|].
    intros ->. apply (NL _ _ A). }
  { apply dedges_NoDup; apply SUBD. }
  { intros e _ []. }
  cbn [app] in INC. fold R0 in INC.
  assert (NODES : forall x, In x (tree_nodes T dist) <-> descends T s x).
  { intros x. rewrite tree_nodes_ok, <- RE. split; [|auto]. intros [((p & c) & I & J)|J]; [|exact J].
    destruct (tree_reach T s RT p c I) as (A & B). cbn in J. destruct J as [-> | ->]; assumption. }
  destruct (mapM_exists (fun v => match predecessors T v with
                           | p :: _ => Ok (v, Some p)
                           | [] => Throw IndexErrorPy
                           end) (fun v b => fst b = v /\ exists p, snd b = Some p /\ In (p, v) T)
             (filter (fun v => negb (Nat.eqb v s)) (tree_nodes T dist))) as (par & EPAR & FPAR).
  { intros v I. apply filter_In in I. destruct I as (I & N). apply negb_true_iff, Nat.eqb_neq in N. apply NODES in I.
    inversion I as [|p c RP J]; subst; [congruence|]. destruct (predecessors_ok T s v p RT J) as (r & ->).
    eexists. split; [reflexivity|]. cbn. split; [reflexivity|]. exists p. auto. }
  set (td := map (fun '(v, _) => (v, if Nat.eqb v s then 0%Z else py_maxsize)) dist).
  set (TT := mkTree s (tree_nodes T dist) T dist G' pre post).
  set (st := mkSst td (map (fun '(v, _) => (v, null_vertex)) dist) (map (fun '(v, _) => (v, null_vertex)) dist)
        (map (fun '(v, _) => (v, false)) dist)
        (map (fun '(v, d) => (d, v)) td) inc (map (fun v => (v, successors T v)) (tree_nodes T dist)) (dset par s null_vertex)).
  exists TT, st, fpre, fpost, R0, G'.
  assert (CF : forall u w c, C TT u w c <-> arc G' u w c).
  { intros u w c. assert (L1 : forall c, C TT u w c -> arc G' u w c).
    { intros c0 (row & A & B). exists row. split; apply dget_In; assumption. }
    split; [apply L1|]. intros A. assert (A' := A). destruct A as (row & I & J).
    assert (Q : dget G' u = Some row).
    { apply dget_some; [|exact I]. rewrite KG. apply SUBD. }
    destruct (dget_key row w) as (c' & K); [apply in_map_iff; exists (w, c); auto|].
    assert (CC : C TT u w c') by (exists row; auto). pose proof (L1 _ CC) as A2.
    apply PO in A'. apply PO in A2. destruct A' as (w1 & du & dv & X1 & X2 & X3 & ->). destruct A2 as (w2 & du' & dv' & Y1 & Y2 & Y3 & E2).
    rewrite (entry_unique _ _ _ _ ND X2 Y2), (entry_unique _ _ _ _ ND X3 Y3).
    assert (w1 = w2).
    { destruct X1 as (l1 & I1 & J1). destruct Y1 as (l2 & I2 & J2). destruct DG as (D1 & D2 & _).
      rewrite (entry_unique G u l1 l2 D1 I1 I2) in J1. apply (entry_unique l2 w w1 w2 (D2 _ _ I2) J1 J2). }
    subst w2. rewrite <- E2. exact CC. }
  assert (R0F : forall u w, In (u, w) R0 <-> (exists c, arc G' u w c) /\ ~ In (u, w) T).
  { intros u w. unfold R0. rewrite filter_In, ESUB. cbn [fst snd]. rewrite negb_true_iff.
    assert (HE : has_edge T u w = false <-> ~ In (u, w) T).
    { pose proof (has_edge_ok T u w). destruct (has_edge T u w); split; intros; try congruence; intuition congruence. }
    rewrite HE. split.
    - intros (((c & A) & U & W) & N). split; [|exact N]. apply RE in U. apply RE in W.
      destruct (dist_entry _ _ U) as (du & DU). destruct (dist_entry _ _ W) as (dw & DW).
      exists (c + du - dw)%Z. apply PO. exists c, du, dw. auto.
    - intros ((c & A) & N). split; [|exact N]. apply PO in A. destruct A as (w0 & du & dv & X1 & X2 & X3 & _).
      split; [exists w0; exact X1|]. rewrite !RE. apply (in_map fst) in X2. apply (in_map fst) in X3. auto. }
  assert (TARC : forall u w, In (u, w) T -> arc G' u w 0%Z).
  { intros u w I. destruct (TP u w I) as (q & U & V). destruct SP as (_ & _ & W & _).
    destruct (W _ _ U) as (du & EU & WU). destruct (W _ _ V) as (dv & EV & WV).
    destruct (zero_tree_arc G s dist q u w du dv DG SD EU EV WU WV) as (c & A & Z).
    apply PO. exists c, du, dv. unfold adjust_edge_cost in Z. split; [exact A|]. split; [exact EU|]. split; [exact EV|]. lia. }
  assert (ARCG : forall u w c, arc G' u w c -> exists c', arc G u w c').
  { intros u w c A. apply PO in A. destruct A as (c' & _ & _ & A & _). eauto. }
  assert (R0R : forall e, In e R0 -> descends T s (fst e) /\ descends T s (snd e)).
  { intros (u & w) I. unfold R0 in I. apply filter_In in I. destruct I as (I & _). apply ESUB in I. cbn. tauto. }
  assert (ENV : env TT fpre fpost R0).
  { constructor; cbn.
    - exact RT.
    - exact PRE.
    - exact POST.
    - intros a d RA RD. destruct (ANC a d RA RD) as (b & EB & <-). unfold is_ancestor, dfetch in EB.
      rewrite (PRE a RA), (PRE d RD), (POST a RA), (POST d RD) in EB. cbn [bind] in EB.
      destruct (Z.leb_spec (fpre a) (fpre d)).
      + injection EB as <-. rewrite Z.geb_leb, Z.leb_le. lia.
      + injection EB as <-. split; [lia|discriminate].
    - intros a b RA RB E. apply IO1 in RA. apply IO1 in RB. unfold fpre in E.
      assert (F : find_pos a o1 = find_pos b o1) by lia.
      destruct (find_pos_split a o1 RA) as (x1 & y1 & E1 & L1 & N1). destruct (find_pos_split b o1 RB) as (x2 & y2 & E2 & L2 & N2).
      rewrite L1, L2 in F. rewrite E1 in E2. apply app_eq_app in E2.
      assert (Q : x1 = x2 /\ a :: y1 = b :: y2); [|destruct Q; congruence].
      destruct E2 as (l & [(A & B)|(A & B)]); subst; rewrite app_length in F; assert (length l = 0) by lia;
        destruct l; cbn in *; try discriminate; rewrite app_nil_r; auto.
    - intros x RX. apply NODES. exact RX.
    - exact R0R.
    - intros u w c I A. apply CF in A. apply PO in A. destruct A as (w0 & du & dv & X1 & X2 & X3 & ->).
      pose proof (nonneg_arc G s dist u w w0 du dv SD X1 X2 X3) as N. unfold adjust_edge_cost in N. lia.
    - intros u v w I1 I2 NV. destruct (Nat.eq_dec w s) as [E|NW]; [exact E|exfalso].
      destruct (R0R _ I1) as (RU & RV). destruct (R0R _ I2) as (_ & RW). cbn in RU, RV, RW.
      apply R0F in I1. apply R0F in I2. destruct I1 as ((c1 & A1) & N1). destruct I2 as ((c2 & A2) & N2).
      inversion RV as [|p c RP J]; subst; [congruence|]. inversion RW as [|q c RQ K]; subst; [congruence|].
      destruct (ARCG _ _ _ A1) as (a1 & B1). destruct (ARCG _ _ _ A2) as (a2 & B2).
      destruct (ARCG _ _ _ (TARC _ _ J)) as (a3 & B3). destruct (ARCG _ _ _ (TARC _ _ K)) as (a4 & B4).
      assert (NUP : u <> p) by (intros ->; contradiction).
      pose proof (SPL v w u p q a1 a3 a2 a4 NV NUP B1 B3 B2 B4) as ->. contradiction. }
  assert (TDV : forall x, descends T s x -> dget td x = Some (if Nat.eqb x s then 0%Z else py_maxsize)).
  { intros x RX. apply RE in RX. destruct (dget_key td x) as (d & D).
    - unfold td. rewrite map_map. rewrite (map_ext _ fst) by (intros (a & b); reflexivity). exact RX.
    - rewrite D. apply dget_In in D. unfold td in D. apply in_map_iff in D. destruct D as ((y & z) & E & _). inversion E; subst. reflexivity. }
  assert (TD : forall x, descends T s x -> tdv st x = if Nat.eqb x s then 0%Z else py_maxsize).
  { intros x RX. unfold tdv. change (s_td st) with td. rewrite (TDV x RX). reflexivity. }
  assert (MAX : (0 < py_maxsize)%Z) by (vm_compute; reflexivity).
  assert (INV : inv TT fpre R0 st R0 []).
  { constructor.
    - constructor.
      + apply NoDup_filter. apply dedges_NoDup; apply SUBD.
      + intros (u & w) I. destruct (R0R _ I) as (RU & RW). cbn in RU, RW. apply R0F in I. destruct I as ((c & A) & N).
        cbn. split; [exact RU|]. split; [exact RW|]. split; [intros ->; destruct (ARCG _ _ _ A) as (c' & A'); apply (NL _ _ A')|].
        split; [exact N|]. exists c. apply CF. exact A.
      + exact INC.
      + intros x RX. exists (if Nat.eqb x s then 0%Z else py_maxsize). apply TDV. exact RX.
    - constructor; cbn.
      + intros x RX. apply RE in RX. destruct (dget_key (map (fun '(v, _) => (v, false)) dist) x) as (b & B).
        * rewrite map_map. rewrite (map_ext _ fst) by (intros (a & b); reflexivity). exact RX.
        * rewrite B. apply dget_In, in_map_iff in B. destruct B as ((y & z) & E & _). inversion E. reflexivity.
      + intros x RX. destruct (dget_key (map (fun v => (v, successors T v)) (tree_nodes T dist)) x) as (k & K).
        * rewrite map_map. cbn. rewrite map_id. apply NODES. exact RX.
        * exists k. split; [exact K|]. apply dget_In, in_map_iff in K. destruct K as (y & E & _). inversion E; subst.
          split; [apply (successors_NoDup T s RT)|]. intros c. rewrite successors_In. tauto.
      + intros x RX _. rewrite dget_dset. destruct (Nat.eqb_spec x s) as [->|N].
        * exists None. split; [reflexivity|]. intros p. split; [discriminate|]. intros (I & _). exfalso. apply RT. apply in_map_iff. exists (p, s). auto.
        * destruct (dget_key par x) as (o & O).
          { assert (I : In x (filter (fun v => negb (Nat.eqb v s)) (tree_nodes T dist))).
            { apply filter_In. split; [apply NODES; exact RX|]. apply negb_true_iff, Nat.eqb_neq. exact N. }
            destruct (Forall2_in_l _ _ _ _ FPAR I) as (b & J & K & _). apply in_map_iff. exists b. auto. }
          exists o. split; [exact O|]. apply dget_In in O. destruct (Forall2_in_r _ _ _ _ FPAR O) as (y & J & K & p & E & TPX).
          cbn in K, E. subst y o. intros p'. split.
          -- intros Q. inversion Q; subst. auto.
          -- intros (Q & _). f_equal. apply (one_parent T s RT _ _ _ TPX Q).
    - apply incl_refl.
    - constructor.
    - intros x [].
    - left. reflexivity.
    - rewrite TD by constructor. cbn. rewrite Nat.eqb_refl. reflexivity.
    - intros x RX. rewrite TD by exact RX. destruct (Nat.eqb x s); lia.
    - intros x [].
    - constructor.
    - intros x y [].
    - intros x RX _ L. rewrite TD in * by exact RX. cbn [st s_heap]. apply in_map_iff. exists (x, if Nat.eqb x s then 0%Z else py_maxsize).
      split; [reflexivity|]. apply dget_In. apply TDV. exact RX.
    - intros d x I. cbn [st s_heap] in I. apply in_map_iff in I. destruct I as ((y & z) & E & I). inversion E; subst.
      assert (RX : descends T s x).
      { apply RE. unfold td in I. apply in_map_iff in I. destruct I as ((y & z) & E' & I). inversion E'; subst. apply in_map_iff. exists (x, z). auto. }
      split; [exact RX|]. rewrite TD by exact RX. unfold td in I. apply in_map_iff in I. destruct I as ((y & z) & E' & I). inversion E'; subst. lia.
    - auto.
    - intros e I. right. intros z [].
    - intros u w c m _ _ (l1 & l2 & E & _). destruct l1; discriminate.
    - intros w RW NW L. rewrite TD in L by exact RW. cbn in NW. apply Nat.eqb_neq in NW. rewrite NW in L. lia. }
  split.
  { unfold suurballe_init. cbv zeta. rewrite ET. cbn [bind]. fold keep. fold sub. rewrite EG. cbn [bind]. rewrite EP. cbn [bind].
    rewrite EQ. cbn [bind]. rewrite EI. cbn [bind]. rewrite EPAR. cbn [bind]. reflexivity. }
  split; [exact ENV|]. split; [exact INV|]. split.
  { cbn [st s_heap]. unfold td. rewrite !map_length. pose proof (dedges_sub_length G keep) as L1. fold sub in L1.
    assert (L2 : length R0 <= length (dedges sub)); [|lia]. unfold R0. clear. induction (dedges sub) as [|a l IH]; [apply le_n|].
    cbn. destruct (negb _); cbn; lia. }
  split; [reflexivity|]. split; [reflexivity|]. split; [exact EG|]. split; [exact RE|]. split; [exact CF|]. split; [exact TARC|exact R0F].
Qed.
