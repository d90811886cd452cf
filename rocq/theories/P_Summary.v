(** * P_Summary: the statistics and the table of a data set, and all tables *)
From Coq Require Import String QArith Sorting Permutation.
From Verif Require Import Base P_Base M_Python M_PyWrap M_RunAlg M_Compare M_Stats M_Dataset M_Csv M_Tables M_Labels M_Summary
  Spec_Lab P_Lab Spec_Tables P_Tables Spec_Labels P_Labels Spec_Summary.
Open Scope nat_scope.
Open Scope string_scope.

(** ** Statistics *)
Lemma mapM_all : forall A B (f : A -> res B) l r, Forall2 (fun a b => f a = Ok b) l r -> mapM f l = Ok r.
Proof. induction 1 as [|a b l r E F IH]; simpl; [reflexivity|]. rewrite E. simpl. rewrite IH. reflexivity. Qed.

Lemma londonaq_instance_ok : forall S name r,
  londonaq_instance S name = Ok r <-> exists x, londonaq_measured S name x /\ r = ("graph_name", CStr name) :: stats_dict x.
Proof.
  intros S name r. unfold londonaq_instance, londonaq_measured. split.
  - intros H. apply bind_ok in H. destruct H as [[g ds] [E H]]. apply bind_ok in H. destruct H as [root [E1 H]].
    apply bind_ok in H. destruct H as [x [E2 H]]. injection H as <-. destruct ds as [|d ds]; [discriminate|]. injection E1 as ->.
    exists x. split; [|reflexivity]. eauto 6.
  - intros [x [[g [root [ds [E1 E2]]]] ->]]. rewrite E1. simpl. rewrite E2. reflexivity.
Qed.

Lemma tspwplib_instance_ok : forall S name gen cost kappa r,
  tspwplib_instance S (name, gen, cost, Some kappa) = Ok r <-> exists x, tspwplib_measured S name gen cost kappa x /\
    r = ("graph_name", CStr name) :: ("generation", CStr gen) :: ("cost_function", CStr cost) :: ("kappa", CInt kappa) :: stats_dict x.
Proof.
  intros S name gen cost kappa r. unfold tspwplib_instance, tspwplib_measured. split.
  - intros H. apply bind_ok in H. destruct H as [[g ds] [E H]]. apply bind_ok in H. destruct H as [g1 [E1 H]].
    apply bind_ok in H. destruct H as [g2 [E2 H]]. apply bind_ok in H. destruct H as [root [E3 H]]. apply bind_ok in H. destruct H as [x [E4 H]].
    injection H as <-. destruct ds as [|d ds]; [discriminate|]. injection E3 as ->. exists x. split; [|reflexivity].
    exists g, root, ds, g1, g2. split; [exact E|]. split; [exact E1|]. destruct (String.eqb_spec cost "MST") as [->|N].
    + split; [auto|]. split; [congruence|exact E4].
    + injection E2 as ->. split; [congruence|]. split; [auto|exact E4].
  - intros [x [[g [root [ds [g1 [g2 [E [E1 [M [N E4]]]]]]]]] ->]]. rewrite E. cbn [bind]. rewrite E1. cbn [bind].
    destruct (String.eqb_spec cost "MST") as [->|Ne].
    + rewrite (M eq_refl). cbn [bind first_depot]. rewrite E4. reflexivity.
    + rewrite (N Ne) in E4. cbn [bind first_depot]. rewrite E4. reflexivity.
Qed.

Lemma mapM_iff : forall A B (f : A -> res B) l, (exists r, mapM f l = Ok r) <-> forall a, In a l -> exists b, f a = Ok b.
Proof.
  intros A B f l. split.
  - intros [r E]. apply mapM_inv in E. induction E; intros a0 []; subst; eauto.
  - intros H. destruct (mapM_exists f (fun _ _ => True) l) as [r [E _]]; [|eauto]. intros a I. destruct (H a I) as [b E]. eauto.
Qed.

Lemma in_keys : forall S n g c k, In (n, g, c, k) (tspwplib_keys S) <->
  In n tspwplib_graphs /\ In g (src_generations S) /\ In c the_costs /\ exists z, k = Some z /\ In z the_kappas.
Proof.
  intros S n g c k. unfold tspwplib_keys. change tsplib_graph_name_list with tspwplib_graphs. change tsplib_cost_functions with the_costs.
  change tsplib_kappa_list with (map Some the_kappas). split.
  - intros I. apply in_flat_map in I. destruct I as [n' [In' I]]. apply in_flat_map in I. destruct I as [g' [Ig I]].
    apply in_flat_map in I. destruct I as [c' [Ic I]]. apply in_map_iff in I. destruct I as [k' [E Ik]]. injection E as <- <- <- <-.
    apply in_map_iff in Ik. destruct Ik as [z [<- Iz]]. eauto 8.
  - intros [I1 [I2 [I3 [z [-> I4]]]]]. apply in_flat_map. exists n. split; [exact I1|]. apply in_flat_map. exists g. split; [exact I2|].
    apply in_flat_map. exists c. split; [exact I3|]. apply in_map. apply in_map. exact I4.
Qed.

Lemma stats_iff : forall S d, (exists rows, stats_of_dataset S d = Ok rows) <-> all_measured S d.
Proof.
  intros S [|]; unfold stats_of_dataset, all_measured; rewrite mapM_iff.
  - change londonaq_graph_name_list with londonaq_graphs. split; intros H n I; destruct (H n I) as [x E].
    + apply londonaq_instance_ok in E. destruct E as [y [E _]]. eauto.
    + eexists. apply londonaq_instance_ok. eauto.
  - split.
    + intros H n g c k I1 I2 I3 I4. destruct (H (n, g, c, Some k)) as [x E]; [apply in_keys; eauto 8|].
      apply tspwplib_instance_ok in E. destruct E as [y [E _]]. eauto.
    + intros H [[[n g] c] k] I. apply in_keys in I. destruct I as [I1 [I2 [I3 [z [-> I4]]]]].
      destruct (H n g c z I1 I2 I3 I4) as [x E]. eexists. apply tspwplib_instance_ok. eauto.
Qed.

Lemma stats_command_ok : forall S d fs,
  ((exists rows, snd (stats_command S d fs) = Ok rows) <-> all_measured S d) /\
  (~ all_measured S d -> fst (stats_command S d fs) = fs) /\
  (forall rows, snd (stats_command S d fs) = Ok rows -> forall d', fst (stats_command S d fs) d' =
     if match d, d' with Londonaq, Londonaq | Tspwplib, Tspwplib => true | _, _ => false end then Some rows else fs d').
Proof.
  intros S d fs. rewrite <- stats_iff. unfold stats_command. destruct (stats_of_dataset S d) as [rows| | |]; simpl;
    (split; [split; intros [r E]; try discriminate E; eauto|]); (split; [intros N|]); try reflexivity; try (exfalso; eauto; fail).
  - intros r E d'. injection E as <-. destruct d, d'; reflexivity.
  - intros r E; discriminate E.
  - intros r E; discriminate E.
  - intros r E; discriminate E.
Qed.

(** ** The table of londonaq *)
Lemma mapM_map : forall A B C (f : B -> res C) (g : A -> B) l, mapM f (map g l) = mapM (fun a => f (g a)) l.
Proof. induction l as [|a l IH]; simpl; [reflexivity|]. destruct (f (g a)); simpl; auto. rewrite IH. reflexivity. Qed.
Lemma mapM_pure : forall A B (f : A -> B) l, mapM (fun a => Ok (f a)) l = Ok (map f l).
Proof. induction l as [|a l IH]; simpl; [reflexivity|]. rewrite IH. reflexivity. Qed.

Lemma londonaq_end : forall S xs, Forall2 (londonaq_measured S) londonaq_graphs xs ->
  exists rows, stats_of_dataset S Londonaq = Ok rows /\
    dataset_table Londonaq rows = Ok (mkT (Flat (map (fun h => (fst (fst h), map (snd h) xs)) londonaq_heads)) [Some "graph_name"]
      (map (fun n => [VStr n]) londonaq_graphs), FmtL :: map (fun h => snd (fst h)) londonaq_heads).
Proof.
  intros S xs F. set (mk := fun nx : string * (instance_stats * Q * Q) => ("graph_name", CStr (fst nx)) :: stats_dict (snd nx)).
  assert (L : List.length xs = 4) by (apply Forall2_length_eq in F; simpl in F; auto).
  exists (map mk (combine londonaq_graphs xs)). split.
  - unfold stats_of_dataset. apply mapM_all. change londonaq_graph_name_list with londonaq_graphs. clear L. revert xs F.
    generalize londonaq_graphs. induction l as [|n l IH]; intros xs F; inversion F; subst; simpl; constructor; auto.
    apply londonaq_instance_ok. eexists. split; [eassumption|reflexivity].
  - destruct xs as [|x1 [|x2 [|x3 [|x4 [|]]]]]; simpl in L; try lia.
    destruct x1 as [[x1 a1] b1], x2 as [[x2 a2] b2], x3 as [[x3 a3] b3], x4 as [[x4 a4] b4]. reflexivity.
Qed.

(** ** The table of tspwplib *)
Definition rtuple := (option string * option Z * option Q * option Q)%type.
Definition to_num (o : option Q) : num := match o with Some q => Fin q | None => NaN end.
Definition to_ratio (t : rtuple) : ratio_row := let '(c, k, d, p) := t in mkRatio c k (to_num d) (to_num p).

Lemma read_ratio_ok : forall r c k d p, ratio_read r c k d p -> read_ratio_row r = Ok (mkRatio c k (to_num d) (to_num p)).
Proof.
  intros r c k d p [[x1 [E1 F1]] [[x2 [E2 F2]] [[x3 [E3 F3]] [x4 [E4 F4]]]]]. unfold read_ratio_row, get_col.
  rewrite E1, F1. cbn [bind]. rewrite E2, F2. cbn [bind]. rewrite E3, F3. cbn [bind]. rewrite E4, F4. reflexivity.
Qed.

Lemma distinct_ok : forall A (eqb : A -> A -> bool), (forall a b, eqb a b = true <-> a = b) -> forall l,
  NoDup (distinct eqb l) /\ forall a, In a (distinct eqb l) <-> In a l.
Proof.
  intros A eqb Q l. unfold distinct.
  assert (G : forall l seen, NoDup seen -> let r := fold_left (fun seen x => if existsb (eqb x) seen then seen else (seen ++ [x])%list) l seen in
    NoDup r /\ forall a, In a r <-> In a seen \/ In a l).
  { clear l. induction l as [|x l IH]; intros seen N; simpl; [split; [exact N|tauto]|].
    destruct (existsb (eqb x) seen) eqn:E.
    - destruct (IH seen N) as [N' I']. split; [exact N'|]. intros a. rewrite I'. apply existsb_exists in E. destruct E as [y [Iy E]].
      apply Q in E. subst y. split; [tauto|intros [H|[->|H]]; auto].
    - assert (NI : ~ In x seen). { intros I. assert (X : existsb (eqb x) seen = true) by (apply existsb_exists; exists x; split; [auto|apply Q; auto]). congruence. }
      assert (N2 : NoDup (seen ++ [x])) by (eapply Permutation_NoDup; [apply Permutation_cons_append|constructor; auto]).
      destruct (IH _ N2) as [N' I']. split; [exact N'|]. intros a. rewrite I', in_app_iff. simpl. tauto. }
  destruct (G l [] (NoDup_nil _)) as [N I]. split; [exact N|]. intros a. rewrite I. simpl. tauto.
Qed.

Lemma selected_map_inv : forall A B (f : A -> B) (P : B -> Prop) l sub, selected P (map f l) sub ->
  exists sub', selected (fun a => P (f a)) l sub' /\ sub = map f sub'.
Proof.
  induction l as [|a l IH]; intros sub H; inversion H; subst.
  - exists []. split; [constructor|reflexivity].
  - destruct (IH _ H4) as [s [S ->]]. exists (a :: s). split; [apply sel_keep; auto|reflexivity].
  - destruct (IH _ H4) as [s [S ->]]. exists s. split; [apply sel_drop; auto|reflexivity].
Qed.
Lemma selected_iff : forall A (P P' : A -> Prop) l sub, (forall a, P a <-> P' a) -> selected P l sub -> selected P' l sub.
Proof. induction 2; [constructor|apply sel_keep|apply sel_drop]; firstorder. Qed.
Lemma selected_none : forall A (P : A -> Prop) l, (forall a, In a l -> ~ P a) -> selected P l [].
Proof. induction l as [|a l IH]; intros H; [constructor|]. apply sel_drop; [apply H; simpl; auto|apply IH; intros; apply H; simpl; auto]. Qed.

Lemma mean_numbers : forall A (f : A -> option Q) l, is_mean (numbers (map f l)) (mean (map (fun a => to_num (f a)) l)).
Proof.
  intros A f l. apply mean_ok. induction l as [|a l IH]; simpl; [reflexivity|]. destruct (f a); simpl; [f_equal; exact IH|exact IH].
Qed.

Lemma relabel_headed : forall A (m : midx A) hs (g : string -> string), headed m hs ->
  headed (mkMidx (m_names m) (map (map g) (m_levels m)) (m_cols m)) (map (fun h => (map g (fst h), snd h)) hs).
Proof.
  intros A m hs g H. unfold headed in *. cbn [m_levels m_cols]. induction H as [|col h cols hs [E [L N]] H IH]; simpl; constructor; auto.
  cbn [fst snd]. split; [exact E|]. split; [rewrite !map_length; exact L|]. intros l s El. rewrite nth_error_map in El.
  destruct (nth_error (fst h) l) as [s0|] eqn:E0; [|discriminate]. injection El as <-. destruct (N l s0 E0) as [k [lev [E1 [E2 E3]]]].
  exists k, (map g lev). split; [exact E1|]. rewrite nth_error_map, E2. split; [reflexivity|]. rewrite nth_error_map, E3. reflexivity.
Qed.

(** The labels and the numbers of the two columns. *)
Definition ratio_labels : list (string * (rtuple -> option Q)) :=
  [("\text{AVG}$(D(G))$", fun r => snd (fst r)); ("\text{AVG}$\left(\frac{p(V(H))}{p(V(G))}\right)$", fun r => snd r)].

Lemma zleb_trans : forall a b c, Z.leb a b = true -> Z.leb b c = true -> Z.leb a c = true.
Proof. intros a b c. rewrite !Z.leb_le. lia. Qed.
Lemma zleb_total : forall a b, Z.leb a b = true \/ Z.leb b a = true.
Proof. intros a b. rewrite !Z.leb_le. lia. Qed.

Lemma tspwplib_table_ok : forall rows (rs : list rtuple), Forall2 (fun r (t : rtuple) => let '(c, k, d, p) := t in ratio_read r c k d p) rows rs ->
  exists m kappas costs hs, tspwplib_table rows = Ok (mkT (Multi m) [Some "kappa"] (map (fun k => [VNum (Fin (inject_Z k))]) kappas),
      [FmtL; FmtGap; FmtGap; FmtGap; FmtGap]) /\
    StronglySorted Z.lt kappas /\
    (forall k, In k kappas <-> exists r c, In r rs /\ fst (fst r) = (Some c, Some k)) /\
    NoDup costs /\ StronglySorted (fun a b => String.leb a b = true) costs /\
    (forall c, In c costs <-> exists r k, In r rs /\ fst (fst r) = (Some c, Some k)) /\
    headed m hs /\
    Forall2 (fun ch h => fst h = [make_column_name_pretty (fst ch); fst (snd ch)] /\
      Forall2 (ratio_cell rs (snd (snd ch)) (fst ch)) kappas (snd h)) (list_prod costs ratio_labels) hs.
Proof.
  intros rows rs F. unfold tspwplib_table.
  assert (E : mapM read_ratio_row rows = Ok (map to_ratio rs)).
  { apply mapM_all. clear -F. induction F as [|r [[[c k] d] p] rows rs H F IH]; simpl; constructor; auto. apply read_ratio_ok. exact H. }
  rewrite E. cbn [bind]. clear E F rows.
  set (gs := groupby rowkey_eqb ratio_key (map to_ratio rs)).
  assert (GR : grouped eq ratio_key (map to_ratio rs) gs) by (apply groupby_ok; [apply rowkey_eqb_eq|reflexivity|congruence]).
  destruct GR as [_ [GS GC]].
  set (groups := map _ gs).
  set (costs := distinct String.eqb _). set (kappas := sort_by Z.leb _).
  set (cell := fun metric cost kappa => match find (fun g => rowkey_eqb (cost, kappa) (fst g)) groups with
    | Some g => VNum (if String.eqb metric "mean_disjoint_prize_ratio" then fst (snd g) else snd (snd g)) | None => VNum NaN end).
  set (f := fun metric cost => map (cell metric cost) kappas).
  set (m := sort_index (swaplevel (unstack "cost_function" ["mean_disjoint_prize_ratio"; "mean_preprocessed_prize_ratio"] costs f))).
  assert (KEY : forall r c k, In r rs -> (fst (fst r) = (Some c, Some k) <-> ratio_key (to_ratio r) = Some (c, k))).
  { intros [[[c0 k0] d] p] c k _. simpl. unfold ratio_key. simpl. split; [intros E; injection E as -> ->; reflexivity|].
    destruct c0, k0; try discriminate. intros E. injection E as -> ->. reflexivity. }
  assert (GI : forall c k, In (c, k) (map fst groups) <-> exists r, In r rs /\ fst (fst r) = (Some c, Some k)).
  { intros c k. unfold groups. rewrite map_map. simpl. split.
    - intros I. apply in_map_iff in I. destruct I as [[k0 l] [E I]]. simpl in E. subst k0. destruct (GS _ _ I) as [NE SEL].
      apply selected_map_inv in SEL. destruct SEL as [sub [SEL ->]]. destruct sub as [|r sub]; [contradiction|].
      pose proof (proj1 (selected_In _ _ _ SEL r) (or_introl eq_refl)) as [Ir [k' [E' E2]]]. subst k'. exists r. split; [exact Ir|].
      apply KEY; auto.
    - intros [r [Ir E]]. apply KEY in E; [|exact Ir]. destruct (GC (to_ratio r) (c, k) (in_map _ _ _ Ir) E) as [k' [l [I [-> _]]]].
      apply in_map_iff. exists ((c, k), l). auto. }
  destruct (distinct_ok string String.eqb String.eqb_eq (map (fun g => fst (fst g)) groups)) as [CN CI]. fold costs in CN, CI.
  destruct (distinct_ok Z Z.eqb Z.eqb_eq (map (fun g => snd (fst g)) groups)) as [KN KI].
  assert (KP : Permutation kappas (distinct Z.eqb (map (fun g => snd (fst g)) groups))) by apply sort_perm.
  pose proof (sort_unstack_headed _ "cost_function" ["mean_disjoint_prize_ratio"; "mean_preprocessed_prize_ratio"] costs f
    ltac:(apply no_dup_strings_ok; reflexivity) CN) as H. fold m in H.
  apply (relabel_headed _ _ _ make_column_name_pretty) in H.
  exists (mkMidx (m_names m) (map (map make_column_name_pretty) (m_levels m)) (m_cols m)), kappas, (sorted_strings costs).
  eexists. split; [reflexivity|].
  assert (KS : StronglySorted Z.lt kappas).
  { assert (S : StronglySorted (fun a b => Z.leb a b = true) kappas) by (apply sort_sorted; [exact zleb_total|exact zleb_trans]).
    assert (N : NoDup kappas) by (eapply Permutation_NoDup; [apply Permutation_sym; exact KP|exact KN]).
    clearbody kappas. clear -S N. induction S as [|k l S IH A]; constructor; inversion N; subst; auto.
    rewrite Forall_forall in *. intros x I. specialize (A x I). apply Z.leb_le in A. assert (x <> k) by congruence. lia. }
  split; [exact KS|]. split.
  { intros k. split.
    - intros I. apply (Permutation_in _ KP) in I. apply KI in I. apply in_map_iff in I. destruct I as [[[c k0] x] [<- I]]. simpl.
      destruct (proj1 (GI c k0)) as [r [Ir Er]]; [apply in_map_iff; exists ((c, k0), x); auto|]. eauto.
    - intros [r [c [Ir Er]]]. apply (Permutation_in _ (Permutation_sym KP)). apply KI.
      assert (I : In (c, k) (map fst groups)) by (apply GI; eauto). apply in_map_iff in I. destruct I as [[ck x] [Eg I]]. simpl in Eg. subst ck.
      apply in_map_iff. exists ((c, k), x). auto. }
  split; [eapply Permutation_NoDup; [apply Permutation_sym, sorted_strings_perm|exact CN]|].
  split; [apply sort_sorted; [exact String.leb_total|exact string_leb_trans]|]. split.
  { intros c. split.
    - intros I. apply (Permutation_in _ (sorted_strings_perm _)) in I. apply CI in I. apply in_map_iff in I. destruct I as [[[c0 k] x] [<- I]]. simpl.
      destruct (proj1 (GI c0 k)) as [r [Ir Er]]; [apply in_map_iff; exists ((c0, k), x); auto|]. eauto.
    - intros [r [k [Ir Er]]]. apply (Permutation_in _ (Permutation_sym (sorted_strings_perm _))). apply CI.
      assert (I : In (c, k) (map fst groups)) by (apply GI; eauto). apply in_map_iff in I. destruct I as [[ck x] [Eg I]]. simpl in Eg. subst ck.
      apply in_map_iff. exists ((c, k), x). auto. }
  split; [exact H|].
  assert (CELL : forall c k,
    ratio_cell rs (fun r => snd (fst r)) c k (cell "mean_disjoint_prize_ratio" c k) /\ ratio_cell rs (fun r => snd r) c k (cell "mean_preprocessed_prize_ratio" c k)).
  { intros c k. unfold cell. destruct (find _ groups) as [[ck x]|] eqn:Fi.
    - apply find_some in Fi. destruct Fi as [I Q]. simpl in Q. apply rowkey_eqb_eq in Q. subst ck.
      unfold groups in I. apply in_map_iff in I. destruct I as [[k0 l] [Ex I]]. simpl in Ex. injection Ex as -> <-.
      destruct (GS _ _ I) as [NE SEL]. apply selected_map_inv in SEL. destruct SEL as [sub [SEL ->]].
      assert (SEL2 : selected (fun r => fst (fst (fst r)) = Some c /\ snd (fst (fst r)) = Some k) rs sub).
      { eapply selected_iff; [|exact SEL]. intros [[[c0 k0] d] p]. simpl. unfold ratio_key. simpl. split.
        - intros [k' [E1 <-]]. destruct c0, k0; try discriminate. injection E1 as -> ->. auto.
        - intros [-> ->]. eauto. }
      rewrite !map_map. cbn [fst snd String.eqb]. split; exists sub; eexists; (split; [exact SEL2|]); (split; [reflexivity|]); cbv [Ascii.eqb Bool.eqb].
      + rewrite (map_ext (fun x => rr_disjoint (to_ratio x)) (fun x => to_num (snd (fst x)))); [apply mean_numbers|].
        intros [[[c0 k0] d] p]. reflexivity.
      + rewrite (map_ext (fun x => rr_pre (to_ratio x)) (fun x => to_num (snd x))); [apply mean_numbers|].
        intros [[[c0 k0] d] p]. reflexivity.
    - assert (NO : forall r, In r rs -> ~ (fst (fst (fst r)) = Some c /\ snd (fst (fst r)) = Some k)).
      { intros r Ir [E1 E2]. assert (I : In (c, k) (map fst groups)).
        { apply GI. exists r. split; [exact Ir|]. destruct (fst (fst r)). simpl in *. congruence. }
        apply in_map_iff in I. destruct I as [[ck x] [Eg I]]. simpl in Eg. subst ck. apply (find_none _ _ Fi) in I. simpl in I.
        rewrite (proj2 (rowkey_eqb_eq (c, k) (c, k)) eq_refl) in I. discriminate. }
      split; exists [], NaN; (split; [apply selected_none; exact NO|]); split; reflexivity. }
  unfold sorted_heads. change (sorted_strings ["mean_disjoint_prize_ratio"; "mean_preprocessed_prize_ratio"])
    with ["mean_disjoint_prize_ratio"; "mean_preprocessed_prize_ratio"].
  rewrite map_flat_map, list_prod_flat. apply Forall2_flat_map. intros c _. cbn [map ratio_labels fst snd].
  constructor; [|constructor; [|constructor]]; cbn [fst snd]; (split; [reflexivity|]); unfold f.
  - clear -CELL. induction kappas as [|k ks IH]; cbn [map]; constructor; [apply CELL|exact IH].
  - clear -CELL. induction kappas as [|k ks IH]; cbn [map]; constructor; [apply CELL|exact IH].
Qed.

Lemma selected_det : forall A (P : A -> Prop) l s1, selected P l s1 -> forall s2, selected P l s2 -> s1 = s2.
Proof.
  induction 1 as [|a l s1 p S IH|a l s1 p S IH]; intros s2 H; inversion H; subst; try reflexivity; try contradiction.
  - f_equal. apply IH. assumption.
  - apply IH. assumption.
Qed.
Lemma selected_app2 : forall A (P : A -> Prop) l1 s1 l2 s2, selected P l1 s1 -> selected P l2 s2 -> selected P (l1 ++ l2) (s1 ++ s2).
Proof. induction 1; intros; simpl; [assumption|apply sel_keep; auto|apply sel_drop; auto]. Qed.
Lemma selected_flat : forall A B (P : B -> Prop) (f g : A -> list B) l, (forall a, In a l -> selected P (f a) (g a)) ->
  selected P (flat_map f l) (flat_map g l).
Proof. induction l as [|a l IH]; intros H; simpl; [constructor|]. apply selected_app2; [apply H; simpl; auto|apply IH; intros; apply H; simpl; auto]. Qed.

Lemma same_kappas : forall ks, StronglySorted Z.lt ks -> (forall k, In k ks <-> In k the_kappas) -> ks = the_kappas.
Proof.
  intros ks S I. apply (sorted_unique Z Z.leb Z.lt); [intros a b L E; apply Z.leb_le in E; lia|repeat constructor; lia| |].
  - clear I. induction S as [|k l S IH A]; constructor; auto. rewrite Forall_forall in *. intros y Iy. specialize (A y Iy). apply Z.leb_le. lia.
  - apply NoDup_Permutation; [|repeat constructor; simpl; intuition lia|exact I].
    clear I. induction S as [|k l S IH A]; constructor; auto. rewrite Forall_forall in A. intros Ik. specialize (A k Ik). lia.
Qed.
Lemma same_costs : forall cs, NoDup cs -> StronglySorted (fun a b => String.leb a b = true) cs -> (forall c, In c cs <-> In c the_costs) -> cs = the_costs.
Proof.
  intros cs N S I. apply (sorted_unique string String.leb (fun a b => String.leb b a = false)); [congruence|repeat constructor|exact S|].
  apply NoDup_Permutation; [exact N|apply no_dup_strings_ok; reflexivity|exact I].
Qed.

Section End.
Variable S : sources.
Variable x : string -> string -> string -> Z -> instance_stats * Q * Q.
Hypothesis M : forall name gen cost kappa, In name tspwplib_graphs -> In gen (src_generations S) -> In cost the_costs ->
  In kappa the_kappas -> tspwplib_measured S name gen cost kappa (x name gen cost kappa).
Hypothesis G : src_generations S <> [].

Let okz (k : option Z) : Z := match k with Some z => z | None => 0%Z end.
Let mk (key : string * string * string * option Z) : row := let '(n, g, c, k) := key in
  ("graph_name", CStr n) :: ("generation", CStr g) :: ("cost_function", CStr c) :: ("kappa", CInt (okz k)) :: stats_dict (x n g c (okz k)).
Let tup (key : string * string * string * option Z) : rtuple := let '(n, g, c, k) := key in
  (Some c, Some (okz k), Some (part (disjoint_prize_ratio (fst (fst (x n g c (okz k)))))), Some (part (pre_prize_ratio (fst (fst (x n g c (okz k))))))).

Lemma tspwplib_rows : stats_of_dataset S Tspwplib = Ok (map mk (tspwplib_keys S)).
Proof using M.
  unfold stats_of_dataset. apply mapM_all.
  assert (H : forall l, (forall key, In key l -> In key (tspwplib_keys S)) -> Forall2 (fun a b => tspwplib_instance S a = Ok b) l (map mk l)).
  { induction l as [|[[[n g] c] k] l IH]; intros I; simpl; constructor; [|apply IH; intros; apply I; simpl; auto].
    assert (J : In (n, g, c, k) (tspwplib_keys S)) by (apply I; simpl; auto). apply in_keys in J. destruct J as [I1 [I2 [I3 [z [-> I4]]]]].
    apply tspwplib_instance_ok. eexists. split; [apply M; assumption|reflexivity]. }
  apply H. auto.
Qed.

Lemma keys_selected : forall c k, In c the_costs -> In k the_kappas ->
  selected (fun key => snd (fst key) = c /\ snd key = Some k) (tspwplib_keys S)
    (map (fun ng => (fst ng, snd ng, c, Some k)) (list_prod tspwplib_graphs (src_generations S))).
Proof using.
  intros c k Ic Ik. unfold tspwplib_keys. change tsplib_graph_name_list with tspwplib_graphs.
  rewrite list_prod_flat, map_flat_map. apply selected_flat. intros n _.
  rewrite map_map. assert (E : map (fun g : string => (fst (n, g), snd (n, g), c, Some k)) (src_generations S) =
    flat_map (fun g => [(n, g, c, Some k)]) (src_generations S)).
  { clear; generalize (src_generations S); induction l as [|g gs IH]; simpl; [reflexivity|f_equal; exact IH]. }
  rewrite E. apply selected_flat. intros g _. unfold the_costs, the_kappas in *. unfold tsplib_cost_functions, tsplib_kappa_list. simpl flat_map.
  destruct Ic as [<-|[<-|[]]]; destruct Ik as [<-|[<-|[<-|[<-|[<-|[]]]]]];
    repeat (first [apply sel_keep; [split; reflexivity|]|apply sel_drop; [intros [A B]; discriminate|]]); constructor.
Qed.

Lemma tspwplib_end : exists rows m hs, stats_of_dataset S Tspwplib = Ok rows /\
  dataset_table Tspwplib rows = Ok (mkT (Multi m) [Some "kappa"] (map (fun k => [VNum (Fin (inject_Z k))]) the_kappas),
    [FmtL; FmtGap; FmtGap; FmtGap; FmtGap]) /\
  headed m hs /\
  Forall2 (fun ch h => fst h = [fst ch; fst (snd ch)] /\
    Forall2 (fun k v => exists q, v = VNum q /\
      is_mean (map (fun ng => snd (snd ch) (fst (fst (x (fst ng) (snd ng) (fst ch) k)))) (list_prod tspwplib_graphs (src_generations S))) q)
      the_kappas (snd h)) (list_prod the_costs ratio_heads) hs.
Proof using M G.
  exists (map mk (tspwplib_keys S)).
  assert (F : Forall2 (fun r (t : rtuple) => let '(c, k, d, p) := t in ratio_read r c k d p) (map mk (tspwplib_keys S)) (map tup (tspwplib_keys S))).
  { apply Forall2_maps. intros [[[n g] c] k] _. unfold tup, mk. destruct (x n g c (okz k)) as [[s a] b].
    repeat split; eexists; split; reflexivity. }
  destruct (tspwplib_table_ok _ _ F) as [m [ks [cs [hs [E [SK [IK [NC [SC [IC [H C]]]]]]]]]]].
  assert (KS : ks = the_kappas).
  { apply same_kappas; [exact SK|]. intros k. rewrite IK. split.
    - intros [r [c [I Er]]]. apply in_map_iff in I. destruct I as [[[[n g] c0] k0] [<- I]]. apply in_keys in I. destruct I as [_ [_ [_ [z [-> Iz]]]]].
      simpl in Er. injection Er as _ <-. exact Iz.
    - intros Ik. destruct (src_generations S) as [|g gs] eqn:Eg; [contradiction|].
      exists (tup ("eil51", g, "MST", Some k)), "MST". split; [|reflexivity]. apply in_map. apply in_keys. rewrite Eg. simpl. intuition eauto. }
  assert (CS : cs = the_costs).
  { apply same_costs; [exact NC|exact SC|]. intros c. rewrite IC. split.
    - intros [r [k [I Er]]]. apply in_map_iff in I. destruct I as [[[[n g] c0] k0] [<- I]]. apply in_keys in I. destruct I as [_ [_ [Ic _]]].
      simpl in Er. injection Er as <- _. exact Ic.
    - intros Ic. destruct (src_generations S) as [|g gs] eqn:Eg; [contradiction|].
      exists (tup ("eil51", g, c, Some 5%Z)), 5%Z. split; [|reflexivity]. apply in_map. apply in_keys. rewrite Eg.
      split; [simpl; auto|]. split; [simpl; auto|]. split; [exact Ic|]. exists 5%Z. simpl. auto. }
  subst ks cs. exists m, hs. split; [apply tspwplib_rows|]. split; [exact E|]. split; [exact H|].
  assert (CELL : forall c (f : rtuple -> option Q) (h : instance_stats -> Q) l, In c the_costs ->
    (forall n g k, In k the_kappas -> f (tup (n, g, c, Some k)) = Some (h (fst (fst (x n g c k))))) ->
    Forall2 (ratio_cell (map tup (tspwplib_keys S)) f c) the_kappas l ->
    Forall2 (fun k v => exists q, v = VNum q /\
      is_mean (map (fun ng => h (fst (fst (x (fst ng) (snd ng) c k)))) (list_prod tspwplib_graphs (src_generations S))) q) the_kappas l).
  { intros c f h l Ic Hf. assert (SUB : forall k, In k the_kappas -> In k the_kappas) by auto. revert l SUB.
    generalize the_kappas at 1 3 4. induction l as [|k ks IH]; intros l SUB R; inversion R as [|k' v ks' l' [sub [q [SEL [-> ME]]]] R']; subst; constructor.
    - exists q. split; [reflexivity|]. assert (Ik : In k the_kappas) by (apply SUB; simpl; auto).
      pose proof (keys_selected c k Ic Ik) as K.
      assert (SEL2 : selected (fun r : rtuple => fst (fst (fst r)) = Some c /\ snd (fst (fst r)) = Some k) (map tup (tspwplib_keys S))
        (map tup (map (fun ng => (fst ng, snd ng, c, Some k)) (list_prod tspwplib_graphs (src_generations S))))).
      { apply selected_map. revert K. assert (Q : forall key, In key (tspwplib_keys S) -> exists z, snd key = Some z).
        { intros [[[n g] c0] k0] I. apply in_keys in I. destruct I as [_ [_ [_ [z [-> _]]]]]. simpl. eauto. }
        revert Q. generalize (tspwplib_keys S). intros keys Q K. induction K as [|key keys sb [P1 P2] K IHK|key keys sb P K IHK]; [constructor| |].
        - apply sel_keep; [|apply IHK; intros; apply Q; simpl; auto]. destruct key as [[[n g] c0] k0]. simpl in *. subst. auto.
        - apply sel_drop; [|apply IHK; intros; apply Q; simpl; auto]. destruct key as [[[n g] c0] k0]. simpl in *.
          destruct (Q _ (or_introl eq_refl)) as [z Ez]. simpl in Ez. subst k0. simpl. intros [A B]. apply P. split; congruence. }
      rewrite (selected_det _ _ _ _ SEL _ SEL2) in ME. revert ME. rewrite !map_map.
      assert (NU : forall l, numbers (map (fun ng : string * string => f (tup (fst ng, snd ng, c, Some k))) l) =
        map (fun ng => h (fst (fst (x (fst ng) (snd ng) c k)))) l).
      { induction l as [|[n g] l0 IHl]; [reflexivity|]. cbn [map fst snd]. rewrite Hf by exact Ik. cbn [numbers]. f_equal. exact IHl. }
      rewrite NU. auto.
    - apply IH; [intros; apply SUB; simpl; auto|exact R']. }
  change (list_prod the_costs ratio_labels) with
    (flat_map (fun c => [(c, nth 0 ratio_labels ("", fun _ => None)); (c, nth 1 ratio_labels ("", fun _ => None))]) the_costs) in C.
  unfold the_costs, ratio_labels in C. simpl in C. inversion C as [|a1 h1 l1 hs1 [A1 B1] C1]; subst. inversion C1 as [|a2 h2 l2 hs2 [A2 B2] C2]; subst.
  inversion C2 as [|a3 h3 l3 hs3 [A3 B3] C3]; subst. inversion C3 as [|a4 h4 l4 hs4 [A4 B4] C4]; subst. inversion C4; subst.
  match goal with |- Forall2 _ ?a _ => let b := eval cbv [list_prod map app the_costs ratio_heads] in a in change a with b end.
  constructor; [|constructor; [|constructor; [|constructor; [|constructor]]]]; cbn [fst snd] in *.
  - split; [exact A1|]. eapply (CELL "EUC_2D" _ (fun s => part (disjoint_prize_ratio s))); [| |exact B1]; [simpl; auto|intros; reflexivity].
  - split; [exact A2|]. eapply (CELL "EUC_2D" _ (fun s => part (pre_prize_ratio s))); [| |exact B2]; [simpl; auto|intros; reflexivity].
  - split; [exact A3|]. eapply (CELL "MST" _ (fun s => part (disjoint_prize_ratio s))); [| |exact B3]; [simpl; auto|intros; reflexivity].
  - split; [exact A4|]. eapply (CELL "MST" _ (fun s => part (pre_prize_ratio s))); [| |exact B4]; [simpl; auto|intros; reflexivity].
Qed.
End End.

(** * All the tables *)
Definition put (st : tables_state) (no : string * option document) : tables_state :=
  match snd no with Some doc => write_doc st (fst no) doc | None => st end.
Definition step_does (step : tables_state -> tables_state * res unit) (no : string * option document) : Prop :=
  forall st, ts_dir st = true -> exists r, step st = (put st no, r) /\ attempt r = Ok tt.

Lemma put_dir : forall st no, ts_dir (put st no) = ts_dir st.
Proof. intros st [n [doc|]]; reflexivity. Qed.
Lemma run_does : forall steps nos, Forall2 step_does steps nos -> forall st, ts_dir st = true ->
  run_steps steps st = (fold_left put nos st, Ok tt) /\ ts_dir (fold_left put nos st) = true.
Proof.
  induction 1 as [|step no steps nos D F IH]; intros st T; [split; [reflexivity|exact T]|]. simpl.
  destruct (D st T) as [r [-> A]]. rewrite A. apply IH. rewrite put_dir. exact T.
Qed.
Lemma run_app : forall s1 s2 st st', run_steps s1 st = (st', Ok tt) -> run_steps (s1 ++ s2) st = run_steps s2 st'.
Proof.
  induction s1 as [|s s1 IH]; intros s2 st st' H; simpl in *; [injection H as <-; reflexivity|].
  destruct (s st) as [st1 r]. destruct (attempt r); try discriminate H. apply IH. exact H.
Qed.
Lemma puts_other : forall nos st name, (forall doc, ~ In (name, Some doc) nos) -> ts_files (fold_left put nos st) name = ts_files st name.
Proof.
  induction nos as [|[n o] nos IH]; intros st name H; [reflexivity|]. simpl. rewrite IH; [|intros doc I; apply (H doc); simpl; auto].
  destruct o as [doc|]; [|reflexivity]. simpl. destruct (String.eqb name n) eqn:E; [|reflexivity].
  apply String.eqb_eq in E. subst n. exfalso. apply (H doc). simpl. auto.
Qed.
Lemma puts_in : forall nos, NoDup (map fst nos) -> forall st name doc, In (name, Some doc) nos -> ts_files (fold_left put nos st) name = Some doc.
Proof.
  induction nos as [|[n o] nos IH]; intros N st name doc I; [destruct I|]. simpl in *. inversion N as [|n' ns NI N']; subst. destruct I as [I|I].
  - injection I as -> ->. rewrite puts_other; [simpl; rewrite String.eqb_refl; reflexivity|].
    intros doc' I'. apply NI. change name with (fst (name, Some doc')). apply in_map. exact I'.
  - apply IH; assumption.
Qed.

Definition dataset_out (E : tables_env) (d : dataset_name) : option document :=
  match te_dataset E d with Some rows => match dataset_table d rows with Ok (t, f) => Some (t, Some f) | _ => None end | None => None end.
Definition out (o : option (list row)) (doc : res document) : option document :=
  match o with Some _ => match doc with Ok doc => Some doc | _ => None end | None => None end.

Lemma dataset_does : forall E d, files_good E -> step_does (dataset_step E d) (dataset_doc_name d, dataset_out E d).
Proof.
  intros E d [G _] st T. unfold dataset_step, dataset_out, open_csv, put. destruct (te_dataset E d) as [rows|] eqn:D; simpl.
  - destruct (G d rows D) as [[t f] ->]. rewrite T. eauto.
  - eexists. split; reflexivity.
Qed.
Lemma doc_does : forall E name o doc, (o <> None -> exists x, doc = Ok x) -> (o = None -> doc = Throw FileNotFoundErrorPy) ->
  step_does (doc_step E name doc) (name, out o doc).
Proof.
  intros E name o doc G N st T. unfold doc_step, mkdir, out, put. rewrite T. destruct o as [rows|]; simpl.
  - destruct G as [x ->]; [discriminate|]. eauto.
  - rewrite N by reflexivity. eexists. split; reflexivity.
Qed.
Lemma heur_does : forall E d name, files_good E -> step_does (fun st => (st, heuristics_result E d)) (name, None).
Proof.
  intros E d name [_ [_ [_ G]]] st _. exists (heuristics_result E d). split; [reflexivity|].
  destruct (te_csv E d CompareHeuristics) as [h|] eqn:H; [|unfold heuristics_result; rewrite H; reflexivity].
  destruct (te_csv E d CostCover) as [c|] eqn:C; [|unfold heuristics_result; rewrite H, C; reflexivity].
  rewrite G by congruence. reflexivity.
Qed.
Lemma cost_cover_none : forall E d, te_csv E d CostCover = None -> cost_cover_doc E d = Throw FileNotFoundErrorPy.
Proof. intros E d H. unfold cost_cover_doc. rewrite H. reflexivity. Qed.
Lemma tailing_off_none : forall E d, te_csv E d TailingOff = None -> tailing_off_doc E d = Throw FileNotFoundErrorPy.
Proof. intros E d H. unfold tailing_off_doc. rewrite H. reflexivity. Qed.

Definition outs (E : tables_env) (d : dataset_name) : list (string * option document) :=
  [(dataset_doc_name d, dataset_out E d); (doc_name d "cost_cover", out (te_csv E d CostCover) (cost_cover_doc E d));
   (doc_name d "heuristics", None); (doc_name d "tailing_off", out (te_csv E d TailingOff) (tailing_off_doc E d))].
Lemma steps_do : forall E d, files_good E -> Forall2 step_does (table_steps E d) (outs E d).
Proof.
  intros E d G. pose proof G as [_ [G1 [G2 _]]]. unfold table_steps, outs. constructor; [|constructor; [|constructor; [|constructor; [|constructor]]]].
  - apply dataset_does. exact G.
  - apply doc_does; [apply G1|apply cost_cover_none].
  - apply heur_does. exact G.
  - apply doc_does; [apply G2|apply tailing_off_none].
Qed.
Definition all_outs (E : tables_env) := flat_map (outs E) [Londonaq; Tspwplib].
Lemma all_do : forall E, files_good E -> Forall2 step_does (flat_map (table_steps E) [Londonaq; Tspwplib]) (all_outs E).
Proof. intros E G. unfold all_outs. cbn [flat_map]. apply Forall2_app; [apply steps_do; exact G|]. apply Forall2_app; [apply steps_do; exact G|constructor]. Qed.
Lemma all_names : forall E, NoDup (map fst (all_outs E)).
Proof. intros E. apply no_dup_strings_ok. reflexivity. Qed.
Lemma out_due : forall o doc x, out o doc = Some x <-> o <> None /\ doc = Ok x.
Proof.
  intros o doc x. unfold out. destruct o; [|split; [discriminate|intros [H _]; contradiction]].
  split.
  - destruct doc; intros H; try discriminate H. injection H as ->. split; [discriminate|reflexivity].
  - intros [_ ->]. reflexivity.
Qed.
Lemma dataset_due : forall E d x, dataset_out E d = Some x <-> exists rows t f, te_dataset E d = Some rows /\ dataset_table d rows = Ok (t, f) /\ x = (t, Some f).
Proof.
  intros E d x. unfold dataset_out. split.
  - destruct (te_dataset E d) as [rows|]; [|discriminate]. destruct (dataset_table d rows) as [[t f]|e|u|] eqn:T; try discriminate.
    intros H. injection H as <-. exists rows, t, f. auto.
  - intros [rows [t [f [-> [-> ->]]]]]. reflexivity.
Qed.
Lemma cost_cover_due : forall E d x, te_csv E d CostCover <> None -> cost_cover_doc E d = Ok x ->
  due E (match d with Londonaq => "londonaq_cost_cover.tex" | Tspwplib => "tspwplib_cost_cover.tex" end) x.
Proof.
  intros E d x A B.
  destruct (te_csv E d CostCover) as [csv|] eqn:EC; [|contradiction]. unfold cost_cover_doc in B. rewrite EC in B. cbn [open_csv bind] in B.
  apply bind_ok in B. destruct B as [rows [B1 B]]. apply bind_ok in B. destruct B as [t [B2 B]]. apply bind_ok in B. destruct B as [[t' f] [B3 B]].
  injection B as <-. exact (due_cost_cover E d csv rows t t' f EC B1 B2 B3).
Qed.
Lemma due_in : forall E name doc, due E name doc <-> In (name, Some doc) (all_outs E).
Proof.
  intros E name doc. split.
  - assert (I : forall d no, In no (outs E d) -> In no (all_outs E)).
    { intros d no I. unfold all_outs. apply in_flat_map. exists d. split; [destruct d; simpl; auto|exact I]. }
    intros [d rows t f A B|d csv rows t t' f A B C D|d csv rows t A B C]; apply (I d); unfold outs.
    + left. f_equal. apply dataset_due. eauto 6.
    + right. left. f_equal; [destruct d; reflexivity|]. apply out_due. split; [congruence|].
      unfold cost_cover_doc. rewrite A. cbn [open_csv bind]. rewrite B. cbn [bind]. rewrite C. cbn [bind]. rewrite D. reflexivity.
    + do 3 right. left. f_equal; [destruct d; reflexivity|]. apply out_due. split; [congruence|].
      unfold tailing_off_doc. rewrite A. cbn [open_csv bind]. rewrite B. cbn [bind]. rewrite C. reflexivity.
  - unfold all_outs. intros I. apply in_flat_map in I. destruct I as [d [_ I]]. unfold outs in I. destruct I as [I|[I|[I|[I|[]]]]].
    + injection I as <- I. apply dataset_due in I. destruct I as [rows [t [f [A [B ->]]]]]. apply (due_dataset E d rows); assumption.
    + injection I as <- I. apply out_due in I. destruct I as [A B].
      replace (doc_name d "cost_cover") with (match d with Londonaq => "londonaq_cost_cover.tex" | Tspwplib => "tspwplib_cost_cover.tex" end) by (destruct d; reflexivity).
      apply cost_cover_due; assumption.
    + discriminate.
    + injection I as <- I. apply out_due in I. destruct I as [A B].
      replace (doc_name d "tailing_off") with (match d with Londonaq => "londonaq_tailing_off.tex" | Tspwplib => "tspwplib_tailing_off.tex" end) by (destruct d; reflexivity).
      destruct (te_csv E d TailingOff) as [csv|] eqn:EC; [|contradiction]. unfold tailing_off_doc in B. rewrite EC in B. cbn [open_csv bind] in B.
      apply bind_ok in B. destruct B as [rows [B1 B]]. apply bind_ok in B. destruct B as [t [B2 B]].
      injection B as <-. exact (due_tailing_off E d csv rows t EC B1 B2).
Qed.

Lemma puts_due : forall E st, as_due E (fun _ => False) (ts_files st) (ts_files (fold_left put (all_outs E) st)).
Proof.
  intros E st name. split; [intros []|]. split.
  - intros _ doc D. apply puts_in; [apply all_names|]. apply due_in. exact D.
  - intros H. apply puts_other. intros doc I. apply (H doc). apply due_in. exact I.
Qed.
Lemma generate_ok : forall E st, files_good E -> ts_dir st = true ->
  exists st', generate_all_tables E st = (st', Ok tt) /\ ts_dir st' = true /\ as_due E (fun _ => False) (ts_files st) (ts_files st').
Proof.
  intros E st G T. destruct (run_does _ _ (all_do E G) st T) as [H D]. eexists. split; [exact H|]. split; [exact D|]. apply puts_due.
Qed.

Lemma doc_step_new : forall E name doc st, ts_dir st = false -> te_parent E = true ->
  doc_step E name doc st = doc_step E name doc (mkTs true (ts_files st)).
Proof. intros E name doc st D P. unfold doc_step, mkdir. rewrite D, P. reflexivity. Qed.

(** Every output but the first, the table of londonaq. *)
Definition later (E : tables_env) := tl (all_outs E).
Lemma later_not : forall E o, ~ In ("londonaq_dataset.tex", o) (later E).
Proof.
  intros E o I. pose proof (all_names E) as N. change (map fst (all_outs E)) with ("londonaq_dataset.tex" :: map fst (later E)) in N.
  apply NoDup_cons_iff in N. apply (proj1 N). apply (in_map fst) in I. exact I.
Qed.
Lemma later_due : forall E fs, as_due E (fun n => n = "londonaq_dataset.tex") fs (ts_files (fold_left put (later E) (mkTs true fs))).
Proof.
  intros E fs name. pose proof (all_names E) as N. split; [|split].
  - intros ->. rewrite puts_other; [reflexivity|]. intros doc. apply later_not.
  - intros NE doc D. apply puts_in; [inversion N; assumption|]. apply due_in in D. destruct D as [D|D]; [|exact D].
    injection D as D _. symmetry in D. contradiction.
  - intros H. rewrite puts_other; [reflexivity|]. intros doc I. apply (H doc). apply due_in. right. exact I.
Qed.
Lemma from_second : forall E st, files_good E -> ts_dir st = false -> te_parent E = true ->
  exists st', run_steps (tl (flat_map (table_steps E) [Londonaq; Tspwplib])) st = (st', Ok tt) /\ ts_dir st' = true /\
    as_due E (fun n => n = "londonaq_dataset.tex") (ts_files st) (ts_files st').
Proof.
  intros E st G D P.
  assert (A : Forall2 step_does (tl (flat_map (table_steps E) [Londonaq; Tspwplib])) (later E)) by (pose proof (all_do E G) as A; inversion A; assumption).
  destruct (run_does _ _ A (mkTs true (ts_files st)) eq_refl) as [R T].
  exists (fold_left put (later E) (mkTs true (ts_files st))). split; [|split; [exact T|apply later_due]]. rewrite <- R.
  cbn [flat_map table_steps tl app]. cbn [run_steps]. rewrite doc_step_new by assumption. reflexivity.
Qed.
Lemma as_due_none : forall E before after, te_dataset E Londonaq = None ->
  as_due E (fun n => n = "londonaq_dataset.tex") before after -> as_due E (fun _ => False) before after.
Proof.
  intros E before after N H name. destruct (H name) as [H1 [H2 H3]]. split; [intros []|]. split; [|exact H3].
  intros _ doc D. apply H2; [|exact D]. intros ->.
  apply due_in in D. destruct D as [D|D].
  - injection D as D. unfold dataset_out in D. rewrite N in D. discriminate.
  - exact (later_not E _ D).
Qed.

Lemma generate_new : forall E st, files_good E -> ts_dir st = false -> te_parent E = true ->
  (te_dataset E Londonaq = None -> exists st', generate_all_tables E st = (st', Ok tt) /\ ts_dir st' = true /\
     as_due E (fun _ => False) (ts_files st) (ts_files st')) /\
  (te_dataset E Londonaq <> None -> te_no_dir E = FileNotFoundErrorPy ->
     exists st', generate_all_tables E st = (st', Ok tt) /\ ts_dir st' = true /\
     as_due E (fun n => n = "londonaq_dataset.tex") (ts_files st) (ts_files st')) /\
  (te_dataset E Londonaq <> None -> te_no_dir E <> FileNotFoundErrorPy -> generate_all_tables E st = (st, Throw (te_no_dir E))).
Proof.
  intros E st G D P. destruct (from_second E st G D P) as [st' [R [T AD]]].
  assert (U : generate_all_tables E st = let '(st, r) := dataset_step E Londonaq st in
    match attempt r with Ok _ => run_steps (tl (flat_map (table_steps E) [Londonaq; Tspwplib])) st | r => (st, r) end) by reflexivity.
  pose proof G as [G0 _]. unfold dataset_step, open_csv in U. split; [|split].
  - intros N. rewrite N in U. simpl bind in U. cbn [attempt] in U. exists st'. rewrite U. split; [exact R|]. split; [exact T|].
    apply as_due_none; assumption.
  - intros N X. destruct (te_dataset E Londonaq) as [rows|] eqn:Z; [|contradiction]. destruct (G0 _ _ Z) as [[t f] W].
    cbn [bind] in U. rewrite W, D, X in U. cbn [attempt] in U. exists st'. rewrite U. auto.
  - intros N X. destruct (te_dataset E Londonaq) as [rows|] eqn:Z; [|contradiction]. destruct (G0 _ _ Z) as [[t f] W].
    cbn [bind] in U. rewrite W, D in U. rewrite U. destruct (te_no_dir E); try reflexivity. contradiction.
Qed.

Lemma quiet : forall steps st, (forall step, In step steps -> exists r, step st = (st, r) /\ attempt r = Ok tt) -> run_steps steps st = (st, Ok tt).
Proof.
  induction steps as [|s steps IH]; intros st H; [reflexivity|]. simpl. destruct (H s (or_introl eq_refl)) as [r [-> ->]].
  apply IH. intros step I. apply H. right. exact I.
Qed.
Lemma generate_nowhere : forall E st, files_good E -> ts_dir st = false -> te_parent E = false ->
  te_no_dir E = FileNotFoundErrorPy \/ (forall d, te_dataset E d = None) -> generate_all_tables E st = (st, Ok tt).
Proof.
  intros E st G D P X. apply quiet. intros step I. apply in_flat_map in I. destruct I as [d [_ I]].
  assert (W : forall name doc, doc_step E name doc st = (st, Throw FileNotFoundErrorPy)) by (intros; unfold doc_step, mkdir; rewrite D, P; reflexivity).
  destruct I as [<-|[<-|[<-|[<-|[]]]]].
  - unfold dataset_step, open_csv. destruct (te_dataset E d) as [rows|] eqn:Z; [|eexists; split; reflexivity].
    destruct X as [X|X]; [|rewrite X in Z; discriminate]. pose proof G as [G0 _]. destruct (G0 _ _ Z) as [[t f] T]. cbn [bind]. rewrite T, D, X.
    eexists. split; reflexivity.
  - rewrite W. eexists. split; reflexivity.
  - pose proof G as [_ [_ [_ H]]]. exists (heuristics_result E d). split; [reflexivity|].
    destruct (te_csv E d CompareHeuristics) as [h|] eqn:H1; [|unfold heuristics_result; rewrite H1; reflexivity].
    destruct (te_csv E d CostCover) as [c|] eqn:C; [|unfold heuristics_result; rewrite H1, C; reflexivity].
    rewrite H by congruence. reflexivity.
  - rewrite W. eexists. split; reflexivity.
Qed.

(** A table that cannot be made ends the command: those after it are not written. *)
Lemma generate_stops : forall E st e, ts_dir st = true -> cost_cover_doc E Londonaq = Throw e -> e <> FileNotFoundErrorPy ->
  (forall rows, te_dataset E Londonaq = Some rows -> exists t, dataset_table Londonaq rows = Ok t) ->
  exists st', generate_all_tables E st = (st', Throw e) /\
    forall name, name <> "londonaq_dataset.tex" -> ts_files st' name = ts_files st name.
Proof.
  intros E st e T C NE G.
  assert (W : exists r, dataset_step E Londonaq st = (put st ("londonaq_dataset.tex", dataset_out E Londonaq), r) /\ attempt r = Ok tt).
  { unfold dataset_step, dataset_out, open_csv, put. destruct (te_dataset E Londonaq) as [rows|] eqn:Z; cbn [bind fst snd].
    - destruct (G rows eq_refl) as [[t f] ->]. rewrite T. eauto.
    - eexists. split; reflexivity. }
  destruct W as [r [W A]]. exists (put st ("londonaq_dataset.tex", dataset_out E Londonaq)). split.
  - unfold generate_all_tables. cbn [flat_map table_steps app run_steps]. rewrite W, A.
    unfold doc_step at 1, mkdir. rewrite put_dir, T, C. destruct e; try reflexivity. contradiction.
  - intros name N. unfold put. simpl. destruct (dataset_out E Londonaq); [|reflexivity]. simpl.
    destruct (String.eqb name "londonaq_dataset.tex") eqn:Q; [|reflexivity]. apply String.eqb_eq in Q. contradiction.
Qed.

(** ** The csv files, and the results of the heuristics *)
Lemma stats_dict_columns : forall x, stats_dict x = map (fun c => (fst c, snd c x)) stat_columns.
Proof. intros [[s m] p]. reflexivity. Qed.
Lemma Forall2_imp : forall A B (P Q : A -> B -> Prop) l l', (forall a b, In a l -> P a b -> Q a b) -> Forall2 P l l' -> Forall2 Q l l'.
Proof. intros A B P Q l l' H F. induction F as [|a b l l' p F IH]; constructor; [apply H; simpl; auto|apply IH; intros; apply H; simpl; auto]. Qed.
Lemma list_prod_app : forall A B (a b : list A) (c : list B), list_prod (a ++ b) c = (list_prod a c ++ list_prod b c)%list.
Proof. induction a as [|x a IH]; intros b c; simpl; [reflexivity|]. rewrite IH, app_assoc. reflexivity. Qed.
Lemma londonaq_csv : forall S rows, stats_of_dataset S Londonaq = Ok rows ->
  Forall2 (fun name r => exists x, londonaq_measured S name x /\ csv_row [("graph_name", CStr name)] x r) londonaq_graphs rows.
Proof.
  intros S rows E. apply mapM_inv in E. change londonaq_graph_name_list with londonaq_graphs in E. revert E. apply Forall2_imp. intros name r _ E.
  apply londonaq_instance_ok in E. destruct E as [x [M ->]]. exists x. split; [exact M|]. unfold csv_row. rewrite stats_dict_columns. reflexivity.
Qed.
Lemma tspwplib_csv : forall S rows, stats_of_dataset S Tspwplib = Ok rows ->
  Forall2 (fun key r => let '(name, gen, cost, kappa) := key in exists x, tspwplib_measured S name gen cost kappa x /\
      csv_row [("graph_name", CStr name); ("generation", CStr gen); ("cost_function", CStr cost); ("kappa", CInt kappa)] x r)
    (list_prod (list_prod (list_prod tspwplib_graphs (src_generations S)) the_costs) the_kappas) rows.
Proof.
  intros S rows E. apply mapM_inv in E.
  assert (K : tspwplib_keys S = map (fun k => (fst k, Some (snd k))) (list_prod (list_prod (list_prod tspwplib_graphs (src_generations S)) the_costs) the_kappas)).
  { unfold tspwplib_keys. change tsplib_graph_name_list with tspwplib_graphs. change tsplib_cost_functions with the_costs.
    change tsplib_kappa_list with (map Some the_kappas).
    generalize tspwplib_graphs (src_generations S) the_costs the_kappas. clear. intros l1 l2 l3 l4.
    induction l1 as [|a l1 IH]; [reflexivity|]. cbn [flat_map]. rewrite IH. clear IH.
    change (list_prod (a :: l1) l2) with (map (fun y => (a, y)) l2 ++ list_prod l1 l2)%list. rewrite !list_prod_app, map_app. f_equal.
    induction l2 as [|b l2 IH]; [reflexivity|]. cbn [flat_map]. rewrite IH. clear IH.
    cbn [map]. change (list_prod ((a, b) :: map (fun y => (a, y)) l2) l3) with (map (fun y => (a, b, y)) l3 ++ list_prod (map (fun y => (a, y)) l2) l3)%list.
    rewrite list_prod_app, map_app. f_equal.
    induction l3 as [|c l3 IH]; [reflexivity|]. cbn [flat_map]. rewrite IH. clear IH.
    cbn [map]. change (list_prod ((a, b, c) :: map (fun y => (a, b, y)) l3) l4) with (map (fun y => (a, b, c, y)) l4 ++ list_prod (map (fun y => (a, b, y)) l3) l4)%list.
    rewrite map_app, !map_map. reflexivity. }
  rewrite K in E. clear K. revert rows E. generalize (list_prod (list_prod (list_prod tspwplib_graphs (src_generations S)) the_costs) the_kappas).
  induction l as [|[[[n g] c] k] l IH]; intros rows E; inversion E as [|a r l1 rows' E1 E2]; subst; constructor; [|apply IH; exact E2].
  apply tspwplib_instance_ok in E1. destruct E1 as [x [M ->]]. exists x. split; [exact M|]. unfold csv_row. rewrite stats_dict_columns. reflexivity.
Qed.

Lemma heuristics_result_iff : forall E d h c heur exact rows, te_csv E d CompareHeuristics = Some h -> te_csv E d CostCover = Some c ->
  mapM read_heur_row h = Ok heur -> mapM read_exact_row c = Ok exact -> get_heuristics_df d heur exact = Ok rows ->
  ((forall j, In j rows -> exists s, In (h_algorithm (j_heur j), s) names) -> heuristics_result E d = Ok tt) /\
  (forall j k, In j rows -> heur_kept d false j -> heur_group_of d CompareHeuristics j = Some k -> (forall s, ~ In (h_algorithm (j_heur j), s) names) ->
     heuristics_result E d = Throw KeyErrorPy).
Proof.
  intros E d h c heur exact rows H C Eh Ee G. unfold heuristics_result, open_csv. rewrite H, C. cbn [bind]. rewrite Eh. cbn [bind]. rewrite Ee. cbn [bind]. rewrite G. cbn [bind]. split.
  - intros K. destruct (heuristics_lines_ok d CompareHeuristics false rows K) as (sub & gs & t & -> & _). reflexivity.
  - intros j k I KK GG N. rewrite (lines_unknown d CompareHeuristics false rows j k I KK GG N). reflexivity.
Qed.
