(** * P_Messages3: proofs about M_Messages: texts of exceptions, and names *)
From Coq Require Import String Ascii.
From Verif Require Import Base Graph Spec P_Base M_Walk M_Graph M_Gain M_Renaming Spec_Rename P_Model P_Renaming M_Stats P_Stats
  M_Messages Spec_Messages.
Open Scope string_scope.
Open Scope nat_scope.

(** ** Strings *)
Fixpoint lacks (c : ascii) (s : string) : Prop :=
  match s with "" => True | String d r => d <> c /\ lacks c r end.

Lemma lacks_list c s : Forall (fun d => d <> c) (list_ascii_of_string s) -> lacks c s.
Proof. induction s; cbn; intro H; auto. inversion H; auto. Qed.

Lemma sep_inj c a b s t : lacks c a -> lacks c b -> a ++ String c s = b ++ String c t -> a = b /\ s = t.
Proof.
  revert b. induction a as [|x a IH]; intros [|y b] La Lb H; cbn in *.
  - inversion H; auto.
  - inversion H; subst. destruct Lb; congruence.
  - inversion H; subst. destruct La; congruence.
  - inversion H; subst. destruct (IH b) as (-> & ->); tauto.
Qed.

Lemma str_app_inv a b c : a ++ b = a ++ c -> b = c.
Proof. induction a; cbn; auto. intro H. inversion H; auto. Qed.

Lemma str_app_assoc a b c : (a ++ b) ++ c = a ++ b ++ c.
Proof. induction a; cbn; congruence. Qed.

Lemma str_snoc_inv a b c : a ++ String c "" = b ++ String c "" -> a = b.
Proof.
  revert b. induction a as [|x a IH]; intros [|y b] H; cbn in *; auto.
  - inversion H; subst. destruct b; discriminate.
  - inversion H; subst. destruct a; discriminate.
  - inversion H; subst. f_equal. auto.
Qed.

Lemma vstr_inj u v : vstr u = vstr v -> u = v.
Proof. unfold vstr. intro H. apply dec_inj in H. lia. Qed.

Lemma vstr_lacks c v : ~ digit_or_sign c -> lacks c (vstr v).
Proof.
  intro N. apply lacks_list. eapply Forall_impl; [|apply dec_digits]. cbn. intros d H ->. contradiction.
Qed.

Lemma not_digit_space : ~ digit_or_sign " "%char.
Proof. unfold digit_or_sign. cbn. intuition discriminate. Qed.
Lemma not_digit_score : ~ digit_or_sign "_"%char.
Proof. unfold digit_or_sign. cbn. intuition discriminate. Qed.
Lemma not_digit_comma : ~ digit_or_sign ","%char.
Proof. unfold digit_or_sign. cbn. intuition discriminate. Qed.

(** ** Exceptions *)
Lemma edge_text_inj u v u' v' : what (EdgeX u v) = what (EdgeX u' v') -> u = u' /\ v = v'.
Proof.
  unfold what. intro H. apply str_app_inv in H.
  change (vstr u ++ String " " ("and " ++ vstr v) = vstr u' ++ String " " ("and " ++ vstr v')) in H.
  apply sep_inj in H; [|apply vstr_lacks, not_digit_space..]. destruct H as (H1 & H2).
  apply str_app_inv in H2. split; now apply vstr_inj.
Qed.

Lemma invalid_text_inj u v u' v' : what (InvalidArgumentX u v) = what (InvalidArgumentX u' v') -> u = u' /\ v = v'.
Proof.
  unfold what. set (nl := String (ascii_of_nat 10) ""). intro H. apply str_app_inv in H.
  change (vstr u ++ String " " ("and " ++ vstr v ++ String " " ("does not exist. " ++ nl)) =
          vstr u' ++ String " " ("and " ++ vstr v' ++ String " " ("does not exist. " ++ nl))) in H.
  apply sep_inj in H; [|apply vstr_lacks, not_digit_space..]. destruct H as (H1 & H2).
  apply str_app_inv in H2. apply sep_inj in H2; [|apply vstr_lacks, not_digit_space..].
  split; apply vstr_inj; tauto.
Qed.

Lemma error_text x : snd (python_error x) = meant_text x <->
  (forall v, x <> VertexX v) /\ (forall v, x <> SelfLoopX v).
Proof.
  destruct x; cbn; split; intro H; try (split; intros; discriminate); try reflexivity;
    try (discriminate); destruct H as (H1 & H2); exfalso; [eapply H1|eapply H2]; reflexivity.
Qed.

Lemma error_class x : fst (python_error x) = "ValueError" <-> exists u v, x = InvalidArgumentX u v.
Proof.
  destruct x; cbn; split; intro H; try discriminate; try (destruct H as (a & b & H); discriminate); eauto.
Qed.

Lemma error_inj x y :
  (forall v, x <> VertexX v) -> (forall v, x <> SelfLoopX v) -> (forall v, y <> VertexX v) -> (forall v, y <> SelfLoopX v) ->
  snd (python_error x) = snd (python_error y) -> x = y.
Proof.
  intros X1 X2 Y1 Y2 H.
  destruct x; try (exfalso; eapply X1; reflexivity); try (exfalso; eapply X2; reflexivity);
  destruct y; try (exfalso; eapply Y1; reflexivity); try (exfalso; eapply Y2; reflexivity);
    try reflexivity; try (cbn in H; discriminate).
  - change (what (EdgeX u v) = what (EdgeX u0 v0)) in H. apply edge_text_inj in H. destruct H; congruence.
  - change (what (WrongSetX v) = what (WrongSetX v0)) in H. unfold what in H. apply str_app_inv in H.
    apply vstr_inj in H. congruence.
  - change (what (InvalidArgumentX u v) = what (InvalidArgumentX u0 v0)) in H. apply invalid_text_inj in H.
    destruct H; congruence.
Qed.

(** ** Which pair is named *)
Lemma find_edge_joined es k u v : (exists e, find_edge es k u v = Some e) <-> In (u, v) es \/ In (v, u) es.
Proof.
  split.
  - intros (e & H). apply find_edge_Some in H. destruct H as (_ & (p & Hp & J) & _). apply nth_error_In in Hp.
    destruct p as (a, b). apply joinsb_spec in J. destruct J as [J|J]; inversion J; subst; auto.
  - intro H. destruct (find_edge es k u v) as [e|] eqn:E; [eauto|]. exfalso.
    destruct H as [H|H]; apply In_nth_error in H; destruct H as (i & H);
      pose proof (find_edge_None _ _ _ _ E _ _ H) as J; unfold joinsb in J; cbn in J;
      rewrite !Nat.eqb_refl in J; cbn in J; [discriminate|]. rewrite orb_true_r in J. discriminate.
Qed.

Lemma find_edge_not_joined es k u v : find_edge es k u v = None <-> ~ (In (u, v) es \/ In (v, u) es).
Proof.
  rewrite <- (find_edge_joined es k). destruct (find_edge es k u v); split; intro H; try congruence.
  - exfalso. eauto.
  - intros (e & X). discriminate.
Qed.

Lemma first_missing_cons es p ps u v :
  first_missing es (p :: ps) u v <->
  (p = (u, v) /\ ~ (In (u, v) es \/ In (v, u) es)) \/ ((In p es \/ In (snd p, fst p) es) /\ first_missing es ps u v).
Proof.
  unfold first_missing. split.
  - intros ([|q a] & b & E & F & N); cbn in E; inversion E; subst.
    + left. auto.
    + right. inversion F; subst. split; auto. exists a, b. auto.
  - intros [(-> & N)|(J & a & b & E & F & N)].
    + exists [], ps. auto.
    + subst ps. exists (p :: a), b. auto.
Qed.

Lemma first_missing_nil es u v : ~ first_missing es [] u v.
Proof. intros ([|q a] & b & E & _); discriminate. Qed.

Lemma walk_error g w : Forall (fun v => v < gn g) w ->
  (get_edges_in_walk g w = Throw EdgeNotFoundException <-> exists u v, walk_names g w = Some (u, v)) /\
  (forall u v, walk_names g w = Some (u, v) <-> first_missing (ge g) (steps w) u v).
Proof.
  induction w as [|x w IH]; intro F.
  - cbn. split; [split; [discriminate|intros (u & v & H); discriminate]|].
    intros u v. split; [discriminate|]. intro H. now apply first_missing_nil in H.
  - destruct w as [|y w].
    + cbn. split; [split; [discriminate|intros (u & v & H); discriminate]|].
      intros u v. split; [discriminate|]. intro H. now apply first_missing_nil in H.
    + inversion F as [|? ? Fx Fw]; subst. specialize (IH Fw). destruct IH as (IH1 & IH2).
      assert (L : (x <? gn g) = true) by now apply Nat.ltb_lt.
      change (get_edges_in_walk g (x :: y :: w)) with
        (do oe <- edge g x y; match oe with None => Throw EdgeNotFoundException
           | Some e => do es <- get_edges_in_walk g (y :: w); Ok (e :: es) end).
      change (walk_names g (x :: y :: w)) with
        (if x <? gn g then match find_edge (ge g) 0 x y with None => Some (x, y) | Some _ => walk_names g (y :: w) end else None).
      change (steps (x :: y :: w)) with ((x, y) :: steps (y :: w)).
      unfold edge. rewrite L. cbn [bind]. destruct (find_edge (ge g) 0 x y) as [e|] eqn:E.
      * split.
        -- rewrite <- IH1. destruct (get_edges_in_walk g (y :: w)); cbn; split; intro H; try discriminate; auto; now inversion H.
        -- intros u v. rewrite IH2, first_missing_cons. cbn [fst snd].
           assert (J : In (x, y) (ge g) \/ In (y, x) (ge g)) by (apply (find_edge_joined _ 0); eauto). split.
           ++ auto.
           ++ intros [(H & N)|(_ & H)]; auto. inversion H; subst. contradiction.
      * apply find_edge_not_joined in E. split.
        -- split; eauto.
        -- intros u v. rewrite first_missing_cons. cbn [fst snd]. split.
           ++ intro H. inversion H; subst. auto.
           ++ intros [(H & _)|(H & _)]; [congruence|contradiction].
Qed.

Lemma gain_try_throws c p i uv vw e b : gain_try c p i uv vw e b <> Throw InvalidArgument.
Proof.
  unfold gain_try. destruct uv as [euv|]; [|discriminate]. destruct vw as [evw|]; [|discriminate].
  unfold cost_of, vget. destruct (nth_error c euv); cbn; [|discriminate].
  destruct (nth_error c evw); cbn; [|discriminate]. destruct (nth_error c e); cbn; [|discriminate].
  unfold unitary_gain, chk. destruct ((int_min <=? _) && _)%Z; cbn; [|discriminate].
  destruct ((int_min <=? _) && _)%Z; cbn; discriminate.
Qed.

Lemma gain_error g c p v : v < gn g -> forall rest u i best, gain_loop g c p v u rest i best = Throw InvalidArgument ->
  exists a b, walk_names g (u :: rest) = Some (a, b) /\ first_missing (ge g) (steps (u :: rest)) a b.
Proof.
  intro V. induction rest as [|w rest IH]; intros u i best H; [discriminate|].
  cbn [gain_loop] in H. unfold edge in H.
  change (walk_names g (u :: w :: rest)) with
    (if u <? gn g then match find_edge (ge g) 0 u w with None => Some (u, w) | Some _ => walk_names g (w :: rest) end else None).
  change (steps (u :: w :: rest)) with ((u, w) :: steps (w :: rest)).
  destruct (u <? gn g); cbn [bind] in H; [|discriminate].
  destruct (v <? gn g); cbn [bind] in H; [|discriminate].
  destruct (find_edge (ge g) 0 u w) as [e|] eqn:E.
  - destruct (gain_try c p i (find_edge (ge g) 0 u v) (find_edge (ge g) 0 v w) e best) as [b'|x| |] eqn:G;
      cbn in H; try discriminate.
    + destruct (IH _ _ _ H) as (a & b & H1 & H2). exists a, b. split; auto. apply first_missing_cons. right. cbn.
      split; auto. apply (find_edge_joined _ 0). eauto.
    + inversion H; subst. now apply gain_try_throws in G.
  - exists u, w. split; auto. apply first_missing_cons. left. split; auto. now apply find_edge_not_joined in E.
Qed.

Lemma rename_error G dict : Forall (fun kv => In (fst (fst kv)) (ends (ge G)) /\ In (snd (fst kv)) (ends (ge G))) dict ->
  exists bm g labels, rename_graph (ge G) = (bm, g) /\ first_appearance (ends (ge G)) labels /\
    forall c, List.length c = List.length (ge g) ->
    (fill_cost_map g c dict bm = Throw EdgeNotFoundException <->
       exists a b, first_missing (ge G) (map fst dict) a b) /\
    (forall a b, first_missing (ge G) (map fst dict) a b ->
       exists i j, nth_error labels i = Some a /\ nth_error labels j = Some b /\ fill_cost_names g bm dict = Some (i, j)).
Proof.
  intro K. destruct (rename_edges_ok (ge G)) as (out & R & _ & Hout).
  pose proof (labels_first (ends (ge G))) as Hlab. set (labels := labels_of (ends (ge G))) in *.
  assert (Hnd : NoDup labels) by apply Hlab.
  exists (bm_of labels), (add_edges_to_graph (mkGraph 0 []) out), labels.
  split; [unfold rename_graph; now rewrite R|]. split; auto.
  set (g := add_edges_to_graph (mkGraph 0 []) out).
  assert (Gn : gn g = List.length labels) by exact (iso_gn G labels out Hlab Hnd Hout).
  assert (J : forall i j a b, nth_error labels i = Some a -> nth_error labels j = Some b ->
     ((In (i, j) (ge g) \/ In (j, i) (ge g)) <-> (In (a, b) (ge G) \/ In (b, a) (ge G)))).
  { intros i j a b Ha Hb. split.
    - intros [H|H]; apply In_nth_error in H; destruct H as (e & H).
      + assert (X : joins g e i j) by now left. apply (iso_joins G labels out Hnd Hout e i j a b Ha Hb) in X.
        destruct X as [X|X]; apply nth_error_In in X; auto.
      + assert (X : joins g e i j) by now right. apply (iso_joins G labels out Hnd Hout e i j a b Ha Hb) in X.
        destruct X as [X|X]; apply nth_error_In in X; auto.
    - intros [H|H]; apply In_nth_error in H; destruct H as (e & H).
      + assert (X : joins G e a b) by now left. apply (iso_joins G labels out Hnd Hout e i j a b Ha Hb) in X.
        destruct X as [X|X]; apply nth_error_In in X; auto.
      + assert (X : joins G e a b) by now right. apply (iso_joins G labels out Hnd Hout e i j a b Ha Hb) in X.
        destruct X as [X|X]; apply nth_error_In in X; auto. }
  clearbody g. clear R Hout.
  induction dict as [|((a, b), z) dict IH].
  - intros c L. cbn. split; [split; [discriminate|]|].
    + intros (x & y & H). now apply first_missing_nil in H.
    + intros x y H. now apply first_missing_nil in H.
  - inversion K as [|? ? (Ka & Kb) K']; subst. specialize (IH K'). cbn [fst snd] in Ka, Kb.
    destruct Hlab as (_ & HI & _). apply HI in Ka, Kb.
    apply In_nth_error in Ka, Kb. destruct Ka as (i & Ha), Kb as (j & Hb).
    assert (Fa : find_right (bm_of labels) a = Some i) by (now apply find_right_bm).
    assert (Fb : find_right (bm_of labels) b = Some j) by (now apply find_right_bm).
    assert (Li : (i <? gn g) = true).
    { apply Nat.ltb_lt. rewrite Gn. eapply nth_error_Some_lt; eauto. }
    intros c L. unfold fill_cost_map. cbn [foldM fst snd fill_cost_names map].
    unfold get_new_vertex at 1 2. rewrite Fa, Fb. cbn [bind]. unfold edge at 1. rewrite Li. cbn [bind].
    destruct (find_edge (ge g) 0 i j) as [e|] eqn:E.
    + assert (Je : In (a, b) (ge G) \/ In (b, a) (ge G)).
      { apply (J i j a b Ha Hb). apply (find_edge_joined _ 0). eauto. }
      assert (Le : e < List.length c).
      { rewrite L. apply find_edge_Some in E. destruct E as (_ & (p & E & _) & _). rewrite Nat.sub_0_r in E.
        eapply nth_error_Some_lt; eauto. }
      unfold vset. destruct (e <? List.length c) eqn:LE; [|apply Nat.ltb_ge in LE; lia].
      cbn [bind]. fold (fill_cost_map g (upd c e z) dict (bm_of labels)).
      assert (L' : List.length (upd c e z) = List.length (ge g)) by (rewrite upd_length; auto).
      destruct (IH _ L') as (IH1 & IH2). split.
      * rewrite IH1. split; intros (x & y & H); exists x, y.
        -- apply first_missing_cons. right. auto.
        -- apply first_missing_cons in H. destruct H as [(H & N)|(_ & H)]; auto. inversion H; subst. contradiction.
      * intros x y H. apply first_missing_cons in H. destruct H as [(H & N)|(_ & H)]; auto.
        inversion H; subst. contradiction.
    + apply find_edge_not_joined in E. rewrite (J i j a b Ha Hb) in E. split.
      * split; auto. intros _. exists a, b. apply first_missing_cons. auto.
      * intros x y H. apply first_missing_cons in H. destruct H as [(H & N)|(H & _)].
        -- inversion H; subst. eauto.
        -- contradiction.
Qed.

(** ** Names *)
Lemma erase_snoc s c : erase_last (s ++ String c "") = s.
Proof.
  induction s as [|x s IH]; [reflexivity|]. cbn [append]. cbn [erase_last].
  destruct (s ++ String c "") eqn:E; [destruct s; discriminate|]. now rewrite IH.
Qed.

Lemma join_sep_ends vs : vs <> [] -> exists p, join_with_separator vs = p ++ String "_" "".
Proof.
  induction vs as [|v vs IH]; intro N; [congruence|]. cbn [join_with_separator]. destruct vs as [|w vs].
  - exists (var_name v). reflexivity.
  - destruct IH as (p & IH); [discriminate|]. rewrite IH. exists (var_name v ++ "_" ++ p).
    now rewrite !str_app_assoc.
Qed.

Lemma join_sep_inj a b : join_with_separator a = join_with_separator b -> a = b.
Proof.
  revert b. induction a as [|x a IH]; intros [|y b] H; cbn [join_with_separator] in H; auto; try discriminate.
  unfold var_name in H. rewrite !str_app_assoc in H. apply str_app_inv in H. cbn [append] in H.
  apply sep_inj in H; [|apply vstr_lacks, not_digit_score..]. destruct H as (H1 & H2). apply vstr_inj in H1.
  inversion H2 as [H3]. apply IH in H3. congruence.
Qed.

Lemma join_names_inj a b : join_variable_names a = join_variable_names b -> a = b.
Proof.
  unfold join_variable_names. intro H.
  assert (NE : forall v vs, erase_last (join_with_separator (v :: vs)) <> "").
  { intros v vs. cbn [join_with_separator]. unfold var_name. cbn. discriminate. }
  destruct a as [|x a], b as [|y b]; auto.
  - exfalso. symmetry in H. now apply NE in H.
  - exfalso. now apply NE in H.
  - destruct (join_sep_ends (x :: a)) as (p & P); [discriminate|]. destruct (join_sep_ends (y :: b)) as (q & Q); [discriminate|].
    apply join_sep_inj. rewrite P, Q in *. rewrite !erase_snoc in H. congruence.
Qed.

Lemma row_names a b :
  (sec_name a = sec_name b -> a = b) /\ (cycle_cover_name a = cycle_cover_name b -> a = b) /\
  (cost_cover_name a = cost_cover_name b -> a = b) /\
  sec_name a <> cycle_cover_name b /\ sec_name a <> cost_cover_name b /\ cycle_cover_name a <> cost_cover_name b.
Proof.
  unfold sec_name, cycle_cover_name, cost_cover_name.
  split; [intro H; apply str_app_inv in H; now apply join_names_inj|].
  split; [intro H; apply str_app_inv in H; now apply join_names_inj|].
  split; [intro H; apply str_app_inv in H; now apply join_names_inj|].
  split; [|split]; cbn; discriminate.
Qed.

Lemma degree_names i j vs : (degree_name i = degree_name j -> i = j) /\
  degree_name i <> sec_name vs /\ degree_name i <> cycle_cover_name vs /\ degree_name i <> cost_cover_name vs /\
  degree_name i <> "root-constraint" /\ degree_name i <> "prize-constraint".
Proof.
  unfold degree_name, sec_name, cycle_cover_name, cost_cover_name. split.
  - intro H. apply str_app_inv in H. now apply vstr_inj.
  - repeat split; cbn; discriminate.
Qed.

Lemma var_names i j : var_name i = var_name j -> i = j.
Proof.
  unfold var_name. intro H. apply str_app_inv in H. apply str_snoc_inv in H. now apply vstr_inj.
Qed.

Lemma walk_string_inj a b : walk_to_string a = walk_to_string b -> a = b.
Proof.
  revert b. induction a as [|x a IH]; intros [|y b] H; cbn [walk_to_string] in H; auto.
  - destruct (vstr y); discriminate.
  - destruct (vstr x); discriminate.
  - cbn [append] in H. apply sep_inj in H; [|apply vstr_lacks, not_digit_comma..].
    destruct H as (H1 & H2). apply vstr_inj in H1. inversion H2 as [H3]. apply IH in H3. congruence.
Qed.
