(** * P_Renaming: lemmas for C17 and the bindings *)
From Verif Require Import Base Graph Spec M_Walk M_Graph M_Renaming Spec_Rename P_Base P_Model P_Cuts.
Open Scope nat_scope.

Lemma nth_error_nil {A} n : nth_error (@nil A) n = None.
Proof. now destruct n. Qed.

Lemma Forall2_impl {A B} (P Q : A -> B -> Prop) l r :
  (forall a b, P a b -> Q a b) -> Forall2 P l r -> Forall2 Q l r.
Proof. intros H. induction 1; constructor; auto. Qed.

Definition lab_add (labels : list nat) (x : nat) : list nat :=
  if memb x labels then labels else labels ++ [x].
Definition labels_of (l : list nat) : list nat := fold_left lab_add l [].
Definition bm_of (labels : list nat) : bimap := combine (seq 0 (length labels)) labels.

Lemma find_left_off labels : forall k n,
  find_left (combine (seq k (length labels)) labels) n = if Nat.ltb n k then None else nth_error labels (n - k).
Proof.
  unfold find_left. induction labels as [|x l IH]; intros k n; cbn [length seq combine find option_map].
  - destruct (Nat.ltb n k); auto. now rewrite nth_error_nil.
  - cbn [fst]. destruct (Nat.eqb_spec k n) as [->|Hne].
    + cbn [option_map snd]. rewrite Nat.ltb_irrefl, Nat.sub_diag. reflexivity.
    + rewrite IH. destruct (Nat.ltb_spec n (S k)), (Nat.ltb_spec n k); auto; try lia.
      replace (n - k) with (S (n - S k)) by lia. reflexivity.
Qed.

Lemma find_left_bm labels n : find_left (bm_of labels) n = nth_error labels n.
Proof. unfold bm_of. rewrite find_left_off. cbn. now rewrite Nat.sub_0_r. Qed.

Lemma find_right_off labels : NoDup labels -> forall k o n,
  find_right (combine (seq k (length labels)) labels) o = Some n <->
  exists i, n = k + i /\ nth_error labels i = Some o.
Proof.
  unfold find_right. induction 1 as [|x l Hx Hn IH]; intros k o n; cbn [length seq combine find option_map].
  - split; [discriminate|]. intros (i & _ & H). now rewrite nth_error_nil in H.
  - cbn [snd]. destruct (Nat.eqb_spec x o) as [->|Hne].
    + cbn [option_map fst]. split.
      * intros H. inversion H; subst. exists 0. split; [lia|reflexivity].
      * intros ([|i] & -> & H); [f_equal; lia|]. cbn in H. apply nth_error_In in H. tauto.
    + rewrite IH. split.
      * intros (i & -> & H). exists (S i). split; [lia|auto].
      * intros ([|i] & -> & H); [cbn in H; congruence|]. exists i. split; [lia|auto].
Qed.

Lemma find_right_bm labels o n : NoDup labels ->
  (find_right (bm_of labels) o = Some n <-> nth_error labels n = Some o).
Proof.
  intros Hn. unfold bm_of. rewrite find_right_off by auto. split.
  - intros (i & -> & H). exact H.
  - intros H. exists n. auto.
Qed.

Lemma find_right_None labels o : NoDup labels -> find_right (bm_of labels) o = None <-> ~ In o labels.
Proof.
  intros Hn. split.
  - intros H Hin. apply In_nth_error in Hin as [i Hi]. apply (find_right_bm labels o i Hn) in Hi. congruence.
  - intros H. destruct (find_right (bm_of labels) o) eqn:E; auto.
    apply (find_right_bm labels o n Hn) in E. apply nth_error_In in E. tauto.
Qed.

Lemma bm_of_snoc labels x : bm_of (labels ++ [x]) = bm_of labels ++ [(length labels, x)].
Proof.
  unfold bm_of. rewrite app_length. cbn [length]. rewrite seq_app. cbn [seq plus].
  rewrite combine_app_eq by now rewrite seq_length. reflexivity.
Qed.

Lemma NoDup_snoc {A} (l : list A) x : NoDup l -> ~ In x l -> NoDup (l ++ [x]).
Proof.
  intros Hn Hx. apply NoDup_app_iff. split; auto. split; [repeat constructor; simpl; tauto|].
  intros y Hy [<-|[]]. auto.
Qed.

Lemma lab_add_NoDup labels x : NoDup labels -> NoDup (lab_add labels x).
Proof.
  intros H. unfold lab_add. destruct (memb x labels) eqn:E; auto. apply memb_not_In in E. now apply NoDup_snoc.
Qed.

Lemma lab_add_prefix labels x : exists l, lab_add labels x = labels ++ l.
Proof. unfold lab_add. destruct (memb x labels); [exists []; now rewrite app_nil_r|eauto]. Qed.

Lemma lab_add_In labels x y : In y (lab_add labels x) <-> In y labels \/ x = y.
Proof.
  unfold lab_add. destruct (memb x labels) eqn:E.
  - apply memb_In in E. split; auto. intros [H|<-]; auto.
  - rewrite in_app_iff. simpl. tauto.
Qed.

Lemma find_or_insert_ok labels x : NoDup labels ->
  exists n, find_or_insert (bm_of labels) x (length labels)
      = (bm_of (lab_add labels x), length (lab_add labels x), n) /\
    nth_error (lab_add labels x) n = Some x.
Proof.
  intros Hn. unfold find_or_insert, lab_add. destruct (find_right (bm_of labels) x) as [n|] eqn:E.
  - apply (find_right_bm labels x n Hn) in E. exists n.
    replace (memb x labels) with true; [auto|]. symmetry. apply memb_In. eapply nth_error_In; eauto.
  - pose proof (proj1 (find_right_None labels x Hn) E) as Hx.
    replace (memb x labels) with false by (symmetry; now apply memb_not_In).
    exists (length labels). split.
    + unfold bimap_insert. rewrite find_left_bm, E.
      replace (nth_error labels (length labels)) with (@None nat) by (symmetry; apply nth_error_None; lia).
      rewrite <- bm_of_snoc, app_length. cbn [length]. repeat f_equal. lia.
    + rewrite nth_error_app2 by lia. now rewrite Nat.sub_diag.
Qed.

Lemma nth_prefix {A} (l l' : list A) i x : nth_error l i = Some x -> nth_error (l ++ l') i = Some x.
Proof. intros H. rewrite nth_error_app1; auto. eapply nth_error_Some_lt; eauto. Qed.

Definition edge_named (labels : list nat) (p q : nat * nat) : Prop :=
  nth_error labels (fst q) = Some (fst p) /\ nth_error labels (snd q) = Some (snd p).

Lemma edge_named_mono labels l p q : edge_named labels p q -> edge_named (labels ++ l) p q.
Proof. intros [H1 H2]. split; now apply nth_prefix. Qed.

Lemma rename_fold es : forall labels out es0, NoDup labels -> Forall2 (edge_named labels) es0 out ->
  exists labels' out', fold_left rename_step es (bm_of labels, length labels, out)
      = (bm_of labels', length labels', out') /\
    labels' = fold_left lab_add (ends es) labels /\ NoDup labels' /\
    Forall2 (edge_named labels') (es0 ++ es) out'.
Proof.
  induction es as [|[u v] es IH]; intros labels out es0 Hn HF; cbn [fold_left].
  - exists labels, out. rewrite app_nil_r. cbn. auto.
  - unfold rename_step at 2. cbn [fst snd].
    destruct (find_or_insert_ok labels u Hn) as (a & E1 & N1). rewrite E1.
    destruct (find_or_insert_ok (lab_add labels u) v (lab_add_NoDup _ _ Hn)) as (b & E2 & N2). rewrite E2.
    set (l2 := lab_add (lab_add labels u) v) in *.
    destruct (IH l2 (out ++ [(a, b)]) (es0 ++ [(u, v)])) as (labels' & out' & E & El & Hn' & HF').
    + now apply lab_add_NoDup, lab_add_NoDup.
    + destruct (lab_add_prefix labels u) as [x1 X1]. destruct (lab_add_prefix (lab_add labels u) v) as [x2 X2].
      apply Forall2_app.
      * eapply Forall2_impl; [|exact HF]. intros p q H. unfold l2. rewrite X2, X1, <- app_assoc.
        now apply edge_named_mono.
      * constructor; [|constructor]. split; cbn [fst snd]; [|exact N2]. unfold l2. rewrite X2. now apply nth_prefix.
    + exists labels', out'. split; [exact E|]. split; [exact El|]. split; auto.
      now rewrite <- app_assoc in HF'.
Qed.

Lemma rename_edges_ok es : exists out, rename_edges [] es = (bm_of (labels_of (ends es)), out) /\
  NoDup (labels_of (ends es)) /\ Forall2 (edge_named (labels_of (ends es))) es out.
Proof.
  unfold rename_edges. destruct (rename_fold es [] [] [] (NoDup_nil _) (Forall2_nil _)) as (l & out & E & -> & Hn & HF).
  change (bm_of []) with (@nil (nat * nat)) in E. cbn [length] in E. rewrite E. exists out. auto.
Qed.

Lemma rename_vertices_ok vs : rename_vertices [] vs = bm_of (labels_of vs).
Proof.
  unfold rename_vertices, labels_of.
  assert (G : forall vs labels, NoDup labels ->
    fold_left (fun st v => let '(bm, new, _) := find_or_insert (fst st) v (snd st) in (bm, new)) vs
      (bm_of labels, length labels) = (bm_of (fold_left lab_add vs labels), length (fold_left lab_add vs labels))).
  { clear. induction vs as [|v vs IH]; intros labels Hn; cbn [fold_left]; auto. cbn [fst snd].
    destruct (find_or_insert_ok labels v Hn) as (a & E & _). rewrite E. apply IH. now apply lab_add_NoDup. }
  specialize (G vs [] (NoDup_nil _)). change (bm_of []) with (@nil (nat * nat)) in G. cbn [length] in G.
  now rewrite G.
Qed.

Lemma labels_first l : first_appearance l (labels_of l).
Proof.
  unfold labels_of. 
  assert (G : forall l l0 labels, first_appearance l0 labels -> first_appearance (l0 ++ l) (fold_left lab_add l labels)).
  { clear. induction l as [|x l IH]; intros l0 labels H; cbn [fold_left]; [now rewrite app_nil_r|].
    replace (l0 ++ x :: l) with ((l0 ++ [x]) ++ l) by (rewrite <- app_assoc; reflexivity).
    apply IH. destruct H as (Hn & Hin & Ho). split; [now apply lab_add_NoDup|]. split.
    - intros y. rewrite lab_add_In, in_app_iff, Hin. simpl. tauto.
    - intros i j a b Ha Hb Hij. unfold lab_add in *. destruct (memb x labels) eqn:E.
      + destruct (Ho i j a b Ha Hb Hij) as (p & q & -> & Hp). exists p, (q ++ [x]).
        split; auto. rewrite <- app_assoc. reflexivity.
      + apply memb_not_In in E.
        assert (Hj : j < S (length labels)).
        { apply nth_error_Some_lt in Hb. rewrite app_length in Hb. cbn in Hb. lia. }
        rewrite nth_error_app1 in Ha by lia.
        destruct (Nat.eq_dec j (length labels)) as [->|Hne].
        * rewrite nth_error_app2, Nat.sub_diag in Hb by lia. cbn in Hb. inversion Hb; subst b.
          assert (Hal : In a l0) by (apply Hin; eapply nth_error_In; eauto).
          apply in_split in Hal as (p & q & ->). exists p, (q ++ [x]).
          split; [rewrite <- app_assoc; reflexivity|]. intros Hx. apply E, Hin. apply in_app_iff; auto.
        * rewrite nth_error_app1 in Hb by lia.
          destruct (Ho i j a b Ha Hb Hij) as (p & q & -> & Hp). exists p, (q ++ [x]).
          split; auto. rewrite <- app_assoc. reflexivity. }
  apply (G l [] []). split; [constructor|]. split; [simpl; tauto|]. intros i j a b H. now rewrite nth_error_nil in H.
Qed.

(** ** lookups *)
Lemma get_old_ok labels n o : nth_error labels n = Some o -> get_old_vertex (bm_of labels) n = Ok o.
Proof. intros H. unfold get_old_vertex. now rewrite find_left_bm, H. Qed.

Lemma get_new_ok labels n o : NoDup labels -> nth_error labels n = Some o -> get_new_vertex (bm_of labels) o = Ok n.
Proof.
  intros Hn H. unfold get_new_vertex. apply (find_right_bm labels o n Hn) in H. now rewrite H.
Qed.

Lemma get_new_unknown labels o : NoDup labels -> ~ In o labels -> get_new_vertex (bm_of labels) o = UB IterPastEnd.
Proof. intros Hn H. unfold get_new_vertex. now rewrite (proj2 (find_right_None labels o Hn) H). Qed.

Lemma mapM_Forall2 {A B} (f : A -> res B) l r : Forall2 (fun a b => f a = Ok b) l r -> mapM f l = Ok r.
Proof.
  induction 1 as [|a b l r H _ IH]; [reflexivity|]. cbn [mapM]. rewrite H. cbn [bind]. now rewrite IH.
Qed.

Lemma get_old_vertices_ok labels w W : renamed labels w W -> get_old_vertices (bm_of labels) w = Ok W.
Proof.
  intros H. apply mapM_Forall2. eapply Forall2_impl; [|exact H]. intros a u. apply get_old_ok.
Qed.

Lemma Forall2_flip {A B} (P : A -> B -> Prop) l r : Forall2 P l r -> Forall2 (fun b a => P a b) r l.
Proof. induction 1; constructor; auto. Qed.

Lemma get_new_vertices_ok labels w W : NoDup labels -> renamed labels w W -> get_new_vertices (bm_of labels) W = Ok w.
Proof.
  intros Hn H. apply mapM_Forall2. eapply Forall2_impl; [|apply Forall2_flip, H].
  intros u a. now apply get_new_ok.
Qed.

Lemma get_old_edges_ok labels es out : Forall2 (edge_named labels) es out -> get_old_edges (bm_of labels) out = Ok es.
Proof.
  intros H. apply mapM_Forall2. eapply Forall2_impl; [|apply Forall2_flip, H].
  intros q [u v] [H1 H2]. unfold get_old_edge. rewrite (get_old_ok _ _ _ H1). cbn [bind].
  rewrite (get_old_ok _ _ _ H2). reflexivity.
Qed.

Lemma get_new_edges_ok labels es out : NoDup labels -> Forall2 (edge_named labels) es out ->
  get_new_edges (bm_of labels) es = Ok out.
Proof.
  intros Hn H. apply mapM_Forall2. eapply Forall2_impl; [|exact H].
  intros q [u v] [H1 H2]. unfold get_new_edge. rewrite (get_new_ok _ _ _ Hn H1). cbn [bind].
  rewrite (get_new_ok _ _ _ Hn H2). reflexivity.
Qed.

(** ** the renamed graph *)
Lemma add_edges_ge es : forall g, ge (add_edges_to_graph g es) = ge g ++ es.
Proof.
  unfold add_edges_to_graph. induction es as [|[u v] es IH]; intros g; cbn [fold_left]; [now rewrite app_nil_r|].
  rewrite IH. cbn [add_edge ge fst snd]. rewrite <- app_assoc. reflexivity.
Qed.

Lemma add_edges_gn es : forall g n, gn (add_edges_to_graph g es) <= n <->
  gn g <= n /\ Forall (fun p => fst p < n /\ snd p < n) es.
Proof.
  unfold add_edges_to_graph. induction es as [|[u v] es IH]; intros g n; cbn [fold_left].
  - split; [intros H; split; auto|tauto].
  - rewrite IH. cbn [add_edge gn fst snd]. split.
    + intros [H1 H2]. split; [lia|]. constructor; auto. cbn. lia.
    + intros [H1 H2]. inversion H2 as [|? ? H3 H4]; subst. cbn in H3. split; [lia|auto].
Qed.

Lemma In_ends x es : In x (ends es) <-> exists p, In p es /\ (x = fst p \/ x = snd p).
Proof.
  unfold ends. rewrite in_flat_map. split; intros (p & Hp & H); exists p; split; auto; simpl in *; intuition.
Qed.

Lemma Forall2_In_r' {A B} (P : A -> B -> Prop) l r b : Forall2 P l r -> In b r -> exists a, In a l /\ P a b.
Proof. induction 1; intros H'; [destruct H'|]. destruct H' as [<-|H']; [exists x; simpl; auto|]. destruct (IHForall2 H') as (a & ? & ?). exists a; simpl; auto. Qed.

Lemma Forall2_In_l' {A B} (P : A -> B -> Prop) l r a : Forall2 P l r -> In a l -> exists b, In b r /\ P a b.
Proof. induction 1; intros H'; [destruct H'|]. destruct H' as [<-|H']; [exists y; simpl; auto|]. destruct (IHForall2 H') as (b & ? & ?). exists b; simpl; auto. Qed.

Section ISO.
Context (G : graph) (labels : list nat) (out : list (nat * nat)).
Context (Hlab : first_appearance (ends (ge G)) labels) (Hnd : NoDup labels).
Context (Hout : Forall2 (edge_named labels) (ge G) out).
Let g := add_edges_to_graph (mkGraph 0 []) out.

Lemma iso_ge : ge g = out.
Proof. unfold g. now rewrite add_edges_ge. Qed.

Lemma iso_in v : In v labels <-> In v (ends (ge G)).
Proof. apply Hlab. Qed.

Lemma lab_inj a b u : nth_error labels a = Some u -> nth_error labels b = Some u -> a = b.
Proof.
  intros H1 H2. apply (proj1 (NoDup_nth_error labels) Hnd); [|congruence]. eapply nth_error_Some_lt; eauto.
Qed.

Lemma iso_gn : gn g = length labels.
Proof.
  apply Nat.le_antisymm.
  - unfold g. apply add_edges_gn. cbn [gn]. split; [lia|]. apply Forall_forall. intros q Hq.
    destruct (Forall2_In_r' _ _ _ _ Hout Hq) as (p & _ & H1 & H2).
    split; eapply nth_error_Some_lt; eauto.
  - assert (Hle : gn g <= gn g) by lia. unfold g in Hle at 1. apply add_edges_gn in Hle as [_ HF].
    destruct (Nat.le_gt_cases (length labels) (gn g)) as [|Hlt]; auto. exfalso.
    destruct (nth_error labels (gn g)) as [v|] eqn:E; [|apply nth_error_None in E; lia].
    assert (Hv : In v (ends (ge G))) by (apply iso_in; eapply nth_error_In; eauto).
    apply In_ends in Hv as (p & Hp & Hx).
    destruct (Forall2_In_l' _ _ _ _ Hout Hp) as (q & Hq & N1 & N2).
    rewrite Forall_forall in HF. specialize (HF q Hq).
    destruct Hx as [->| ->].
    + assert (gn g = fst q) by (eapply lab_inj; eauto). lia.
    + assert (gn g = snd q) by (eapply lab_inj; eauto). lia.
Qed.

Lemma iso_ok : graph_ok g.
Proof.
  intros a b Hab. rewrite iso_ge in Hab. rewrite iso_gn.
  destruct (Forall2_In_r' _ _ _ _ Hout Hab) as (p & _ & H1 & H2). cbn in H1, H2.
  split; eapply nth_error_Some_lt; eauto.
Qed.

Lemma iso_len : length (ge g) = length (ge G).
Proof. rewrite iso_ge. symmetry. eapply Forall2_length_eq; eauto. Qed.

Lemma iso_joins e a b u v : nth_error labels a = Some u -> nth_error labels b = Some v ->
  (joins g e a b <-> joins G e u v).
Proof.
  intros Ha Hb. unfold joins. rewrite iso_ge.
  destruct (nth_error out e) as [[x y]|] eqn:E.
  - destruct (Forall2_nth _ _ _ _ _ Hout E) as ([p q] & Ep & H1 & H2). cbn in H1, H2. rewrite Ep. split.
    + intros [H|H]; inversion H; subst; [left|right]; congruence.
    + intros [H|H]; inversion H; subst; [left|right]; f_equal; f_equal; eapply lab_inj; eauto.
  - assert (En : nth_error (ge G) e = None).
    { apply nth_error_None. apply nth_error_None in E. rewrite <- iso_len, iso_ge. lia. }
    rewrite En. split; intros [H|H]; discriminate.
Qed.

Lemma iso_joins_ex e a b : joins g e a b -> exists u v, nth_error labels a = Some u /\ nth_error labels b = Some v.
Proof.
  intros H. assert (Hr : a < gn g /\ b < gn g) by (apply is_edge_range; [apply iso_ok|now exists e]).
  rewrite iso_gn in Hr.
  destruct (nth_error labels a) as [u|] eqn:Ea; [|apply nth_error_None in Ea; lia].
  destruct (nth_error labels b) as [v|] eqn:Eb; [|apply nth_error_None in Eb; lia]. eauto.
Qed.

Lemma iso_joins_ex' e u v : joins G e u v -> exists a b, nth_error labels a = Some u /\ nth_error labels b = Some v.
Proof.
  intros H. assert (Hu : In u labels /\ In v labels).
  { rewrite !iso_in, !In_ends. unfold joins in H. destruct H as [H|H]; apply nth_error_In in H; split.
    - exists (u, v). auto.
    - exists (u, v). auto.
    - exists (v, u). auto.
    - exists (v, u). auto. }
  destruct Hu as [H1 H2]. apply In_nth_error in H1 as [a Ha]. apply In_nth_error in H2 as [b Hb]. eauto.
Qed.

Lemma iso_step a b u v e : nth_error labels a = Some u -> nth_error labels b = Some v ->
  (step_edge g a b e <-> step_edge G u v e).
Proof.
  intros Ha Hb. unfold step_edge. rewrite (iso_joins e a b u v Ha Hb).
  split; intros [H1 H2]; split; auto; intros f Hf; apply H2; now apply (iso_joins f a b u v).
Qed.

Lemma iso_walk w W : renamed labels w W -> (is_walk g w <-> is_walk G W).
Proof.
  induction 1 as [|a u w W Ha HF IH]; [split; constructor|].
  destruct HF as [|b v w W Hb HF]; [split; constructor|].
  split; intros H; inversion H as [| |? ? ? [e He] Hw]; subst; constructor.
  - exists e. now apply (iso_joins e a b u v).
  - now apply IH.
  - exists e. now apply (iso_joins e a b u v).
  - now apply IH.
Qed.

Lemma iso_cost c w W z : renamed labels w W -> (walk_cost g c w z <-> walk_cost G c W z).
Proof.
  intros HF. revert z. induction HF as [|a u w W Ha HF IH]; intros z.
  - split; intros H; inversion H; subst; constructor.
  - destruct HF as [|b v w W Hb HF].
    + split; intros H; inversion H; subst; constructor.
    + split; intros H; inversion H as [| |? ? ? e x z' He Hx Hw]; subst; econstructor; eauto.
      * now apply (iso_step a b u v).
      * now apply IH.
      * now apply (iso_step a b u v).
      * now apply IH.
Qed.

Lemma iso_prize p P w W z : (forall a u, nth_error labels a = Some u -> nth_error p a = nth_error P u) ->
  renamed labels w W -> (prize_sum p w z <-> prize_sum P W z).
Proof.
  intros Hp HF. revert z. induction HF as [|a u w W Ha HF IH]; intros z.
  - split; intros H; inversion H; subst; constructor.
  - split; intros H; inversion H as [|? ? x z' Hx Hw]; subst; constructor.
    + rewrite <- (Hp a u Ha). auto.
    + now apply IH.
    + rewrite (Hp a u Ha). auto.
    + now apply IH.
Qed.

Lemma renamed_In w W : renamed labels w W -> forall a u, nth_error labels a = Some u -> (In a w <-> In u W).
Proof.
  induction 1 as [|b v w W Hb HF IH]; intros a u Ha; [simpl; tauto|].
  simpl. rewrite (IH a u Ha). split; (intros [H|H]; [|auto]); left; subst.
  - congruence.
  - eapply lab_inj; eauto.
Qed.

Lemma renamed_NoDup w W : renamed labels w W -> (NoDup w <-> NoDup W).
Proof.
  induction 1 as [|a u w W Ha HF IH]; [split; constructor|].
  split; intros H; inversion H; subst; constructor; try now apply IH.
  - now rewrite <- (renamed_In w W HF a u Ha).
  - now rewrite (renamed_In w W HF a u Ha).
Qed.

Lemma renamed_length w W : renamed labels w W -> length w = length W.
Proof. apply Forall2_length_eq. Qed.

Lemma renamed_removelast w W : renamed labels w W -> renamed labels (removelast w) (removelast W).
Proof.
  induction 1 as [|a u w W Ha HF IH]; [constructor|].
  destruct HF as [|b v w W Hb HF]; [constructor|].
  change (renamed labels (a :: removelast (b :: w)) (u :: removelast (v :: W))). constructor; auto.
Qed.

Lemma renamed_fun w W W' : renamed labels w W -> renamed labels w W' -> W = W'.
Proof.
  intros H. revert W'. induction H as [|a u w W Ha HF IH]; intros W' H'; inversion H'; subst; auto.
  f_equal; [congruence|]. now apply IH.
Qed.

Lemma renamed_exists w : Forall (fun a => a < length labels) w -> exists W, renamed labels w W.
Proof.
  induction 1 as [|a w Ha _ [W HW]]; [exists []; constructor|].
  destruct (nth_error labels a) as [u|] eqn:E; [|apply nth_error_None in E; lia].
  exists (u :: W). constructor; auto.
Qed.

Lemma renamed_exists' W : Forall (fun u => In u labels) W -> exists w, renamed labels w W.
Proof.
  induction 1 as [|u W Hu _ [w Hw]]; [exists []; constructor|].
  apply In_nth_error in Hu as [a Ha]. exists (a :: w). constructor; auto.
Qed.

Context (HG : graph_ok G).

Lemma lab_range a u : nth_error labels a = Some u -> u < gn G.
Proof.
  intros H. apply nth_error_In in H. apply iso_in, In_ends in H as ([x y] & Hp & [->| ->]); apply HG in Hp; tauto.
Qed.

Lemma iso_closed r R m t T : nth_error labels r = Some R -> renamed labels t T ->
  (closed_tour g r m t <-> closed_tour G R m T).
Proof.
  intros Hr HF. split.
  - intros (vs & -> & Hn & Hm & Hw & _).
    inversion HF as [|? u ? W0 Hu HF0]; subst. apply Forall2_app_inv_l in HF0 as (VS & L & HV & HL & ->).
    inversion HL as [|? u' ? L0 Hu' HL0]; subst. inversion HL0; subst.
    assert (u = R) by congruence. assert (u' = R) by congruence. subst u u'.
    exists VS. split; auto. split; [|split; [|split]].
    + apply (renamed_NoDup (r :: vs)); auto. constructor; auto.
    + now rewrite <- (renamed_length vs VS HV).
    + now apply (iso_walk _ _ HF).
    + apply Forall_forall. intros x Hx. destruct (Forall2_In_r' _ _ _ _ HF Hx) as (a & _ & Ha).
      eapply lab_range; eauto.
  - intros (VS & -> & Hn & Hm & Hw & _).
    inversion HF as [|x ? W0 ? Hx HF0]; subst. apply Forall2_app_inv_r in HF0 as (vs & L & HV & HL & ->).
    inversion HL as [|x' ? L0 ? Hx' HL0]; subst. inversion HL0; subst.
    assert (x = r) by (eapply lab_inj; eauto). assert (x' = r) by (eapply lab_inj; eauto). subst x x'.
    exists vs. split; auto. split; [|split; [|split]].
    + apply (renamed_NoDup (r :: vs) (R :: VS)); auto. constructor; auto.
    + now rewrite (renamed_length vs VS HV).
    + now apply (iso_walk _ _ HF).
    + apply Forall_forall. intros a Ha. destruct (Forall2_In_l' _ _ _ _ HF Ha) as (u & _ & Hu).
      rewrite iso_gn. eapply nth_error_Some_lt; eauto.
Qed.

Lemma closed_in_labels R m T : closed_tour G R m T -> Forall (fun u => In u labels) T.
Proof.
  intros (VS & -> & _ & Hl & Hw & _).
  assert (G1 : forall w, is_walk G w -> 2 <= length w -> Forall (fun u => In u labels) w).
  { clear - Hlab Hnd Hout. induction 1 as [|u|u v w [e He] Hw IH]; intros Hl; [constructor|cbn in Hl; lia|].
    destruct (iso_joins_ex' e u v He) as (a & b & Ha & Hb). constructor; [eapply nth_error_In; eauto|].
    destruct w as [|x w]; [repeat constructor; eapply nth_error_In; eauto|]. apply IH. cbn. lia. }
  apply G1; auto. cbn [length]. rewrite app_length. cbn. lia.
Qed.

(** ** dictionaries *)
Lemma fill_cost_ok dict c : costs_given G dict c ->
  fill_cost_map g (repeat 0%Z (length (ge g))) dict (bm_of labels) = Ok c.
Proof.
  intros (Hl & Hin & Hout0). unfold fill_cost_map.
  destruct (foldM_inv (fun c kv =>
           do s <- get_new_vertex (bm_of labels) (fst (fst kv));
           do t <- get_new_vertex (bm_of labels) (snd (fst kv));
           do oe <- edge g s t;
           match oe with
           | None => Throw EdgeNotFoundException
           | Some e => vset c e (snd kv)
           end)
    (fun done c' => length c' = length (ge G) /\
       forall e, e < length (ge G) ->
         ((exists u v x, In ((u, v), x) done /\ step_edge G u v e) -> nth_error c' e = nth_error c e) /\
         ((forall u v x, In ((u, v), x) done -> ~ step_edge G u v e) -> nth_error c' e = Some 0%Z))
    dict (repeat 0%Z (length (ge g)))) as (c' & E & Hc'l & Hc').
  - split; [rewrite repeat_length; apply iso_len|]. intros e He. split.
    + intros (u & v & x & [] & _).
    + intros _. apply nth_error_repeat. now rewrite iso_len.
  - intros done [[u v] x] rest c' Ed (Hc'l & Hc'). cbn [fst snd].
    assert (Hd : In ((u, v), x) dict) by (rewrite Ed; apply in_app_iff; simpl; auto).
    destruct (Hin u v x Hd) as (e & He & Hx).
    destruct (iso_joins_ex' e u v (proj1 He)) as (a & b & Ha & Hb).
    rewrite (get_new_ok labels a u Hnd Ha). cbn [bind]. rewrite (get_new_ok labels b v Hnd Hb). cbn [bind].
    assert (Hs : step_edge g a b e) by (apply (iso_step a b u v); auto).
    assert (Hag : a < gn g) by (rewrite iso_gn; eapply nth_error_Some_lt; eauto).
    rewrite (edge_of_step g a b e Hag Hs). cbn [bind].
    assert (Hel : e < length c') by (rewrite Hc'l; eapply joins_lt; apply He).
    rewrite vset_ok by auto. eexists. split; [reflexivity|]. split; [now rewrite upd_length|].
    intros f Hf. rewrite upd_nth by auto. destruct (Nat.eqb_spec e f) as [<-|Hne].
    + split; [intros _; congruence|]. intros H. exfalso. apply (H u v x); auto. apply in_app_iff; simpl; auto.
    + destruct (Hc' f Hf) as [P1 P2]. split.
      * intros (u' & v' & x' & Hi & Hs'). apply in_app_iff in Hi as [Hi|[Hi|[]]]; [apply P1; eauto|].
        inversion Hi; subst. exfalso. apply Hne. destruct He as [He1 He2]. destruct Hs' as [Hs1 Hs2].
        apply Nat.le_antisymm; auto.
      * intros H. apply P2. intros u' v' x' Hi. apply (H u' v' x'). apply in_app_iff; auto.
  - rewrite E. f_equal. apply nth_ext_list. intros e.
    destruct (Nat.lt_ge_cases e (length (ge G))) as [He|He].
    + destruct (Hc' e He) as [P1 P2].
      assert (Hdec : (exists u v x, In ((u, v), x) dict /\ step_edge G u v e) \/
                     (forall u v x, In ((u, v), x) dict -> ~ step_edge G u v e)).
      { clear - He. induction dict as [|[[u v] x] d IH]; [right; intros ? ? ? []|].
        destruct IH as [(u' & v' & x' & Hi & Hs)|Hno]; [left; exists u', v', x'; simpl; auto|].
        assert (Hd : step_edge G u v e \/ ~ step_edge G u v e).
        { destruct (find_edge (ge G) 0 u v) as [f|] eqn:Ef.
          - assert (Hs : step_edge G u v f).
            { apply edge_Some with (u := u) (v := v) (g := mkGraph (S u) (ge G)).
              unfold edge. cbn [gn ge]. destruct (Nat.ltb_spec u (S u)); [now rewrite Ef|lia]. }
            destruct (Nat.eq_dec e f) as [->|Hne]; [left; auto|].
            right. intros [H1 H2]. destruct Hs as [H3 H4]. apply Hne, Nat.le_antisymm; auto.
          - right. intros [[H|H] _].
            + apply (edge_None (mkGraph (S u) (ge G)) u v); [|exists e; left; exact H].
              unfold edge. cbn [gn ge]. destruct (Nat.ltb_spec u (S u)); [now rewrite Ef|lia].
            + apply (edge_None (mkGraph (S u) (ge G)) u v); [|exists e; right; exact H].
              unfold edge. cbn [gn ge]. destruct (Nat.ltb_spec u (S u)); [now rewrite Ef|lia]. }
        destruct Hd as [Hd|Hd]; [left; exists u, v, x; simpl; auto|].
        right. intros u' v' x' [Hi|Hi]; [inversion Hi; subst; auto|eauto]. }
      destruct Hdec as [Hy|Hno]; [auto|]. rewrite (P2 Hno). symmetry. now apply Hout0.
    + rewrite !(proj2 (nth_error_None _ _)); auto; lia.
Qed.

Lemma fill_prize_ok dict P : prizes_given G dict P ->
  exists p, fill_vertex_map (repeat 0%Z (gn g)) dict (bm_of labels) = Ok p /\ length p = gn g /\
    forall a u, nth_error labels a = Some u -> nth_error p a = nth_error P u.
Proof.
  intros (Hl & Hin & Hno). unfold fill_vertex_map.
  destruct (foldM_inv (fun p kv => do v <- get_new_vertex (bm_of labels) (fst kv); vset p v (snd kv))
    (fun done p => length p = gn g /\ forall a u, nth_error labels a = Some u ->
       ((exists x, In (u, x) done) -> nth_error p a = nth_error P u) /\
       ((forall x, ~ In (u, x) done) -> nth_error p a = Some 0%Z))
    dict (repeat 0%Z (gn g))) as (p & E & Hpl & Hp).
  - split; [apply repeat_length|]. intros a u Ha. split; [intros [x []]|]. intros _.
    apply nth_error_repeat. rewrite iso_gn. eapply nth_error_Some_lt; eauto.
  - intros done [v x] rest p Ed (Hpl & Hp). cbn [fst snd].
    assert (Hd : In (v, x) dict) by (rewrite Ed; apply in_app_iff; simpl; auto).
    destruct (Hin v x Hd) as [Hv Hx]. apply iso_in in Hv. apply In_nth_error in Hv as [a Ha].
    rewrite (get_new_ok labels a v Hnd Ha). cbn [bind].
    assert (Hal : a < length p) by (rewrite Hpl, iso_gn; eapply nth_error_Some_lt; eauto).
    rewrite vset_ok by auto. eexists. split; [reflexivity|]. split; [now rewrite upd_length|].
    intros b u Hb. rewrite upd_nth by auto. destruct (Nat.eqb_spec a b) as [<-|Hne].
    + assert (u = v) by congruence. subst u. split; [intros _; congruence|].
      intros H. exfalso. apply (H x). apply in_app_iff; simpl; auto.
    + destruct (Hp b u Hb) as [P1 P2]. split.
      * intros [y Hy]. apply in_app_iff in Hy as [Hy|[Hy|[]]]; [apply P1; eauto|].
        inversion Hy; subst. exfalso. apply Hne. eapply lab_inj; eauto.
      * intros H. apply P2. intros y Hy. apply (H y). apply in_app_iff; auto.
  - exists p. split; auto. split; auto. intros a u Ha. destruct (Hp a u Ha) as [P1 P2].
    assert (Hdec : (exists x, In (u, x) dict) \/ (forall x, ~ In (u, x) dict)).
    { clear. induction dict as [|[v x] d IH]; [right; intros ? []|].
      destruct IH as [[y Hy]|Hn]; [left; exists y; simpl; auto|].
      destruct (Nat.eq_dec v u) as [->|Hne]; [left; exists x; simpl; auto|].
      right. intros y [Hy|Hy]; [inversion Hy; congruence|apply (Hn y Hy)]. }
    destruct Hdec as [Hy|Hn]; [auto|]. rewrite (P2 Hn). symmetry. apply Hno; auto.
    apply iso_in. eapply nth_error_In; eauto.
Qed.
End ISO.

(** ** C17 *)
Lemma get_old_iff labels n o : get_old_vertex (bm_of labels) n = Ok o <-> nth_error labels n = Some o.
Proof.
  unfold get_old_vertex. rewrite find_left_bm. destruct (nth_error labels n); split; intros H; inversion H; auto.
Qed.

Lemma get_new_iff labels n o : NoDup labels -> (get_new_vertex (bm_of labels) o = Ok n <-> nth_error labels n = Some o).
Proof.
  intros Hn. rewrite <- (find_right_bm labels o n Hn). unfold get_new_vertex.
  destruct (find_right (bm_of labels) o); split; intros H; inversion H; auto.
Qed.

Lemma edge_named_ends labels es out : Forall2 (edge_named labels) es out -> renamed labels (ends out) (ends es).
Proof.
  induction 1 as [|p q es out [H1 H2] _ IH]; [constructor|]. cbn. repeat (constructor; auto).
Qed.

Lemma rename_edges_spec es : exists bm new_es labels,
  rename_edges [] es = (bm, new_es) /\ first_appearance (ends es) labels /\
  (forall n o, get_old_vertex bm n = Ok o <-> nth_error labels n = Some o) /\
  (forall n o, get_new_vertex bm o = Ok n <-> nth_error labels n = Some o) /\
  (forall n, length labels <= n -> get_old_vertex bm n = UB IterPastEnd) /\
  (forall o, ~ In o (ends es) -> get_new_vertex bm o = UB IterPastEnd) /\
  renamed labels (ends new_es) (ends es) /\ length new_es = length es /\
  get_old_edges bm new_es = Ok es /\ get_new_edges bm es = Ok new_es.
Proof.
  destruct (rename_edges_ok es) as (out & E & Hnd & HF). pose proof (labels_first (ends es)) as Hfa.
  set (labels := labels_of (ends es)) in *. exists (bm_of labels), out, labels.
  split; auto. split; auto. split; [intros; apply get_old_iff|]. split; [intros; now apply get_new_iff|].
  split. { intros n Hn. unfold get_old_vertex. rewrite find_left_bm. apply nth_error_None in Hn. now rewrite Hn. }
  split. { intros o Ho. apply get_new_unknown; auto. intros H. apply Ho. now apply Hfa. }
  split; [now apply edge_named_ends|]. split; [symmetry; eapply Forall2_length_eq; eauto|].
  split; [now apply get_old_edges_ok|now apply get_new_edges_ok].
Qed.

Lemma rename_vertices_spec vs : exists labels,
  let bm := rename_vertices [] vs in
  first_appearance vs labels /\
  (forall n o, get_old_vertex bm n = Ok o <-> nth_error labels n = Some o) /\
  (forall n o, get_new_vertex bm o = Ok n <-> nth_error labels n = Some o).
Proof.
  exists (labels_of vs). cbv zeta. rewrite rename_vertices_ok. pose proof (labels_first vs) as Hfa.
  split; auto. split; [intros; apply get_old_iff|]. intros. apply get_new_iff. apply Hfa.
Qed.

Lemma round_trip es bm new_es : rename_edges [] es = (bm, new_es) ->
  (forall vs, Forall (fun v => In v (ends es)) vs ->
     exists ns, get_new_vertices bm vs = Ok ns /\ get_old_vertices bm ns = Ok vs) /\
  (forall ns vs, get_old_vertices bm ns = Ok vs -> get_new_vertices bm vs = Ok ns).
Proof.
  intros E. destruct (rename_edges_ok es) as (out & E' & Hnd & HF). rewrite E' in E. inversion E; subst. clear E.
  pose proof (labels_first (ends es)) as Hfa. set (labels := labels_of (ends es)) in *. split.
  - intros vs Hvs. destruct (renamed_exists' labels vs) as [ns Hns].
    { eapply Forall_impl; [|exact Hvs]. intros v Hv. now apply Hfa. }
    exists ns. split; [now apply get_new_vertices_ok|now apply get_old_vertices_ok].
  - intros ns vs H. apply get_new_vertices_ok; auto. apply mapM_inv in H.
    eapply Forall2_impl; [|exact H]. intros a u. apply get_old_iff.
Qed.
