(** * P_Stats: proofs about statistics files *)
From Coq Require Import DecimalString DecimalZ DecimalFacts.
From Verif Require Import Base P_Base M_Stats M_Events Spec_Stats.
Open Scope string_scope.
Open Scope list_scope.
Open Scope Z_scope.

(** ** Decimal numbers *)

Lemma undec_dec z : undec (dec z) = Some z.
Proof.
  unfold undec, dec. rewrite NilZero.isi.
  - cbn. now rewrite DecimalZ.of_to.
  - destruct z as [|p|p]; cbn; try discriminate. intro H. injection H as H.
    pose proof (DecimalPos.Unsigned.to_uint_nonnil p). contradiction.
  - destruct z as [|p|p]; cbn; try discriminate. intro H. injection H as H.
    pose proof (DecimalPos.Unsigned.to_uint_nonnil p). contradiction.
Qed.

Lemma dec_inj a b : dec a = dec b -> a = b.
Proof. intro H. pose proof (undec_dec a) as E. rewrite H, undec_dec in E. now inversion E. Qed.

Definition digit_or_sign (c : ascii) : Prop :=
  In c ["0";"1";"2";"3";"4";"5";"6";"7";"8";"9";"-"]%char.

Lemma uint_digits d : Forall digit_or_sign (list_ascii_of_string (NilEmpty.string_of_uint d)).
Proof. induction d; cbn; constructor; auto; unfold digit_or_sign; cbn; auto 12. Qed.

Lemma nzuint_digits d : Forall digit_or_sign (list_ascii_of_string (NilZero.string_of_uint d)).
Proof.
  destruct d; try apply (uint_digits (Decimal.D0 _)); try apply uint_digits.
  cbn. constructor; [unfold digit_or_sign; cbn; auto|constructor].
Qed.

Lemma dec_digits z : Forall digit_or_sign (list_ascii_of_string (dec z)).
Proof.
  unfold dec. destruct (Z.to_int z) as [d|d]; cbn; [apply nzuint_digits|].
  constructor; [unfold digit_or_sign; cbn; auto 12|apply nzuint_digits].
Qed.

Lemma dec_clean z : clean (dec z).
Proof.
  unfold clean. eapply Forall_impl; [|apply dec_digits].
  intros c H. unfold digit_or_sign in H. cbn in H.
  repeat (destruct H as [<-|H]; [split; discriminate|]). contradiction.
Qed.

(** ** Texts *)

Lemma sapp_assoc (a b c : string) : ((a ++ b) ++ c = a ++ (b ++ c))%string.
Proof. induction a; cbn; congruence. Qed.

Lemma sapp_nil (a : string) : (a ++ "" = a)%string.
Proof. induction a; cbn; congruence. Qed.

Lemma split_app c p s : Forall (fun a => a <> c) (list_ascii_of_string p) ->
  split c (p ++ String c s)%string = p :: split c s.
Proof.
  induction p as [|a p IH]; cbn; intro H.
  - now rewrite Ascii.eqb_refl.
  - inversion H; subst. destruct (Ascii.eqb_spec a c); [contradiction|]. rewrite IH by assumption. reflexivity.
Qed.

Lemma split_none c p : Forall (fun a => a <> c) (list_ascii_of_string p) -> split c p = [p].
Proof.
  induction p as [|a p IH]; cbn; intro H; [reflexivity|].
  inversion H; subst. destruct (Ascii.eqb_spec a c); [contradiction|]. now rewrite IH.
Qed.

Lemma clean_comma p : clean p -> Forall (fun a => a <> ","%char) (list_ascii_of_string p).
Proof. apply Forall_impl. tauto. Qed.
Lemma clean_line p : clean p -> Forall (fun a => a <> newline) (list_ascii_of_string p).
Proof. apply Forall_impl. tauto. Qed.

(** Fields joined by commas. *)
Fixpoint join (l : list string) : string :=
  match l with
  | [] => ""
  | [x] => x
  | x :: l => (x ++ "," ++ join l)%string
  end.

Lemma split_join l : l <> [] -> Forall clean l -> split ","%char (join l) = l.
Proof.
  induction l as [|x l IH]; intros Hn Hc; [contradiction|]. inversion Hc; subst.
  destruct l as [|y l].
  - cbn. apply split_none. now apply clean_comma.
  - change (join (x :: y :: l)) with (x ++ String ","%char (join (y :: l)))%string.
    rewrite split_app by now apply clean_comma. f_equal. apply IH; [discriminate|assumption].
Qed.

Lemma list_ascii_app a b : list_ascii_of_string (a ++ b)%string = list_ascii_of_string a ++ list_ascii_of_string b.
Proof. induction a; cbn; congruence. Qed.

Lemma join_line l : Forall clean l -> Forall (fun a => a <> newline) (list_ascii_of_string (join l)).
Proof.
  induction l as [|x l IH]; intro Hc; [constructor|]. inversion Hc; subst.
  destruct l as [|y l]; [now apply clean_line|].
  change (join (x :: y :: l)) with (x ++ String ","%char (join (y :: l)))%string.
  rewrite list_ascii_app. apply Forall_app. split; [now apply clean_line|].
  cbn [list_ascii_of_string]. constructor; [discriminate|]. now apply IH.
Qed.

(** Lines. *)
Fixpoint unlines (l : list string) : string :=
  match l with [] => "" | x :: l => (x ++ String newline (unlines l))%string end.

Lemma split_unlines l : Forall (fun s => Forall (fun a => a <> newline) (list_ascii_of_string s)) l ->
  split newline (unlines l) = l ++ [""%string].
Proof.
  induction l as [|x l IH]; intro H; [reflexivity|]. inversion H; subst.
  cbn [unlines]. rewrite split_app by assumption. cbn. f_equal. now apply IH.
Qed.

Lemma read_csv_unlines header rows :
  header <> [] -> Forall clean header ->
  Forall (fun r => List.length r = List.length header /\ Forall clean r) rows ->
  read_csv (unlines (join header :: map join rows)) = Some (map (combine header) rows).
Proof.
  intros Hn Hc Hr. unfold read_csv. change (ascii_of_nat 10) with newline.
  rewrite split_unlines.
  2:{ constructor; [now apply join_line|]. apply Forall_map. eapply Forall_impl; [|exact Hr].
      intros r [_ H]. now apply join_line. }
  rewrite rev_app_distr. cbn [rev app].
  assert (E : map (split ","%char) (map join rows) = rows).
  { rewrite map_map. erewrite map_ext_in; [apply map_id|]. cbn. intros r Hin.
    rewrite Forall_forall in Hr. destruct (Hr r Hin) as [Hl Hcl]. apply split_join; [|exact Hcl].
    intro E. subst r. destruct header; [contradiction|discriminate]. }
  replace (map (split ",") (rev (rev (map join rows) ++ [join header])))
    with (header :: rows).
  2:{ rewrite rev_app_distr, rev_involutive. cbn. rewrite E. now rewrite split_join. }
  replace (forallb _ rows) with true; [reflexivity|]. symmetry. apply forallb_forall.
  rewrite Forall_forall in Hr. intros r Hin. apply Nat.eqb_eq. now destruct (Hr r Hin).
Qed.

(** ** writeRowCSV *)

Lemma write_row_join_gen n items k acc : (k + List.length items = n)%nat ->
  List.fold_left (fun acc (ix : nat * string) =>
    (acc ++ snd ix ++ (if (Z.of_nat (fst ix) <? Z.of_nat n - 1)%Z then "," else ""))%string)
    (combine (seq k (List.length items)) items) acc = (acc ++ join items)%string.
Proof.
  revert k acc. induction items as [|x items IH]; intros k acc H.
  - cbn. now rewrite sapp_nil.
  - cbn [List.length seq combine fold_left fst snd]. cbn [List.length] in H. rewrite IH by lia.
    destruct items as [|y items].
    + cbn in H. replace (Z.of_nat k <? Z.of_nat n - 1) with false by lia. cbn [join].
      rewrite !sapp_nil. reflexivity.
    + cbn [List.length] in H. replace (Z.of_nat k <? Z.of_nat n - 1) with true by lia.
      cbn [join]. rewrite !sapp_assoc. reflexivity.
Qed.

Lemma write_row_join items : write_row items = (join items ++ String newline "")%string.
Proof. unfold write_row, line_end. rewrite (write_row_join_gen (List.length items)) by lia. reflexivity. Qed.

Lemma fold_unlines {A} (row : A -> list string) (wr : A -> string) l acc :
  (forall x, wr x = (join (row x) ++ String newline "")%string) ->
  List.fold_left (fun acc x => (acc ++ wr x)%string) l acc = (acc ++ unlines (map join (map row l)))%string.
Proof.
  intro H. revert acc. induction l as [|x l IH]; intro acc; cbn [fold_left map unlines].
  - now rewrite sapp_nil.
  - rewrite IH, H, !sapp_assoc. reflexivity.
Qed.

Section F.
Context {D : Type} (show : D -> string) (read : string -> option D).

Lemma combine_map_snd {A B} (l : list (A * B)) : combine (map fst l) (map snd l) = l.
Proof. induction l as [|[a b] l IH]; cbn; congruence. Qed.

Lemma node_row_join n : write_node_row show n = (join (map snd (node_record show n)) ++ String newline "")%string.
Proof. unfold write_node_row, comma_end, line_end. cbn [map snd node_record join]. rewrite !sapp_assoc. reflexivity. Qed.

Lemma bounds_row_join stamp b :
  write_bounds_row show stamp b = (join (map snd (bounds_record show stamp b)) ++ String newline "")%string.
Proof. unfold write_bounds_row, comma_end, line_end. cbn [map snd bounds_record join]. rewrite !sapp_assoc. reflexivity. Qed.

Lemma lit_clean s : forallb (fun c => negb (orb (Ascii.eqb c ","%char) (Ascii.eqb c newline))) (list_ascii_of_string s) = true -> clean s.
Proof.
  intro H. apply Forall_forall. rewrite forallb_forall in H. intros c Hc. specialize (H c Hc).
  apply negb_true_iff, orb_false_iff in H as [H1 H2]. apply Ascii.eqb_neq in H1, H2. auto.
Qed.

Hypothesis show_clean : forall d, clean (show d).

Lemma node_csv_read l : exists text, write_node_csv show true l = Some text /\
  read_csv text = Some (map (node_record show) l).
Proof.
  eexists. split; [reflexivity|].
  rewrite (fold_unlines (fun n => map snd (node_record show n))) by apply node_row_join.
  rewrite write_row_join, sapp_assoc. cbn [append].
  change (join node_stats_cols ++ String newline (unlines (map join (map (fun n => map snd (node_record show n)) l))))%string
    with (unlines (join node_stats_cols :: map join (map (fun n => map snd (node_record show n)) l))).
  rewrite read_csv_unlines.
  - f_equal. rewrite map_map. apply map_ext. intro n.
    change node_stats_cols with (map fst (node_record show n)). apply combine_map_snd.
  - discriminate.
  - repeat (apply Forall_cons; [apply lit_clean; reflexivity|]). constructor.
  - apply Forall_map, Forall_forall. intros n _. split; [reflexivity|].
    cbn [map snd node_record]. repeat (apply Forall_cons; [first [apply dec_clean | apply show_clean]|]). constructor.
Qed.

Lemma bounds_csv_read stamp l : (forall t, clean (stamp t)) ->
  exists text, write_bounds_csv show stamp true l = Some text /\
  read_csv text = Some (map (bounds_record show stamp) l).
Proof.
  intro Hs. eexists. split; [reflexivity|].
  rewrite (fold_unlines (fun n => map snd (bounds_record show stamp n))) by apply bounds_row_join.
  rewrite write_row_join, sapp_assoc. cbn [append].
  change (join bounds_cols ++ String newline (unlines (map join (map (fun n => map snd (bounds_record show stamp n)) l))))%string
    with (unlines (join bounds_cols :: map join (map (fun n => map snd (bounds_record show stamp n)) l))).
  rewrite read_csv_unlines.
  - f_equal. rewrite map_map. apply map_ext. intro n.
    change bounds_cols with (map fst (bounds_record show stamp n)). apply combine_map_snd.
  - discriminate.
  - repeat (apply Forall_cons; [apply lit_clean; reflexivity|]). constructor.
  - apply Forall_map, Forall_forall. intros n _. split; [reflexivity|].
    cbn [map snd bounds_record]. repeat (apply Forall_cons; [first [apply dec_clean | apply show_clean | apply Hs]|]). constructor.
Qed.
End F.

(** ** YAML *)
Section Y.
Context {D : Type} (show : D -> string) (read : string -> option D).
Hypothesis read_show : forall d, read (show d) = Some d.

Lemma yint_dec lo hi n k z : yget n k = Some (dec z) -> lo <= z <= hi -> yint lo hi n k = Ok z.
Proof.
  intros H Hz. unfold yint. rewrite H, undec_dec.
  replace (andb (lo <=? z) (z <=? hi)) with true; [reflexivity|]. symmetry. apply andb_true_intro. lia.
Qed.
Lemma ydouble_show n k d : yget n k = Some (show d) -> ydouble read n k = Ok d.
Proof. intro H. unfold ydouble. now rewrite H, read_show. Qed.
Lemma py_int_dec n k z : yget n k = Some (dec z) -> py_int n k = Ok z.
Proof. intro H. unfold py_int. now rewrite H, undec_dec. Qed.
Lemma py_float_show n k d : yget n k = Some (show d) -> py_float read n k = Ok d.
Proof. intro H. unfold py_float. now rewrite H, read_show. Qed.

Lemma yaml_read s : summary_ok s ->
  read_summary_yaml read (write_summary_yaml show true s) =
  Ok (mkSummary (sm_status s) (sm_lower s) (sm_upper s) (sm_cc_disjoint s)
        (sm_pre_disjoint s) (sm_cc_shortest s) (sm_pre_shortest s) (sm_cycle_cover s)
        (sm_nodes s) (sm_sec_disjoint s) (sm_sec_maxflow s)).
Proof.
  intros (H1 & (H2 & H3 & H4 & H5 & H6 & H7 & H8) & H9).
  unfold read_summary_yaml, write_summary_yaml. cbv zeta.
  remember (yset _ "num_sec_maxflow_mincut" _) as n eqn:En.
  unfold yint32, yuint, ylong.
  rewrite (yint_dec _ _ n _ (sm_status s)) by (subst n; auto; reflexivity). cbn [bind].
  rewrite (ydouble_show n _ (sm_lower s)) by (subst n; reflexivity). cbn [bind].
  rewrite (ydouble_show n _ (sm_upper s)) by (subst n; reflexivity). cbn [bind].
  rewrite (yint_dec _ _ n _ (sm_cc_disjoint s)) by (subst n; auto; reflexivity). cbn [bind].
  rewrite (yint_dec _ _ n _ (sm_pre_disjoint s)) by (subst n; auto; reflexivity). cbn [bind].
  rewrite (yint_dec _ _ n _ (sm_cc_shortest s)) by (subst n; auto; reflexivity). cbn [bind].
  rewrite (yint_dec _ _ n _ (sm_pre_shortest s)) by (subst n; auto; reflexivity). cbn [bind].
  rewrite (yint_dec _ _ n _ (sm_cycle_cover s)) by (subst n; auto; reflexivity). cbn [bind].
  rewrite (yint_dec _ _ n _ (sm_nodes s)) by (subst n; auto; reflexivity). cbn [bind].
  rewrite (yint_dec _ _ n _ (sm_sec_disjoint s)) by (subst n; auto; reflexivity). cbn [bind].
  rewrite (yint_dec _ _ n _ (sm_sec_maxflow s)) by (subst n; auto; reflexivity). cbn [bind].
  reflexivity.
Qed.

Lemma yaml_python s : py_from_yaml read (write_summary_yaml show true s) = Ok s.
Proof.
  unfold py_from_yaml, write_summary_yaml. cbv zeta.
  remember (yset _ "num_sec_maxflow_mincut" _) as n eqn:En.
  rewrite (py_int_dec n _ (sm_status s)) by (subst n; reflexivity). cbn [bind].
  rewrite (py_float_show n _ (sm_lower s)) by (subst n; reflexivity). cbn [bind].
  rewrite (py_float_show n _ (sm_upper s)) by (subst n; reflexivity). cbn [bind].
  rewrite (py_int_dec n _ (sm_cc_disjoint s)) by (subst n; reflexivity). cbn [bind].
  rewrite (py_int_dec n _ (sm_cc_shortest s)) by (subst n; reflexivity). cbn [bind].
  rewrite (py_int_dec n _ (sm_pre_disjoint s)) by (subst n; reflexivity). cbn [bind].
  rewrite (py_int_dec n _ (sm_pre_shortest s)) by (subst n; reflexivity). cbn [bind].
  rewrite (py_int_dec n _ (sm_cycle_cover s)) by (subst n; reflexivity). cbn [bind].
  rewrite (py_int_dec n _ (sm_nodes s)) by (subst n; reflexivity). cbn [bind].
  rewrite (py_int_dec n _ (sm_sec_disjoint s)) by (subst n; reflexivity). cbn [bind].
  rewrite (py_int_dec n _ (sm_sec_maxflow s)) by (subst n; reflexivity). cbn [bind].
  now destruct s.
Qed.
End Y.

(** ** Sums *)
Section Sums.
Context {D : Type}.
Lemma u32_add a b : u32 (u32 a + b) = u32 (a + b).
Proof. unfold u32. now rewrite Zplus_mod_idemp_l. Qed.
Lemma u32_add_r a b : u32 (a + u32 b) = u32 (a + b).
Proof. unfold u32. now rewrite Zplus_mod_idemp_r. Qed.
Lemma u32_small a : 0 <= a < 4294967296 -> u32 a = a.
Proof. intro. now apply Z.mod_small. Qed.

Fixpoint sum_by (f : node_stats D -> Z) (l : list (node_stats D)) : Z :=
  match l with [] => 0 | x :: l => f x + sum_by f l end.

Lemma fold_u32 f (l : list (node_stats D)) t : u32 (List.fold_left (fun t n => u32 (t + f n)) l t) = u32 (t + sum_by f l).
Proof.
  revert t. induction l as [|x l IH]; intro t; cbn; [now rewrite Z.add_0_r|].
  rewrite IH, u32_add. f_equal. lia.
Qed.

Lemma u32_idem a : u32 (u32 a) = u32 a.
Proof. unfold u32. now rewrite Zmod_mod. Qed.

Lemma fold_u32' f (l : list (node_stats D)) : List.fold_left (fun t n => u32 (t + f n)) l 0 = u32 (sum_by f l).
Proof.
  rewrite <- (Z.add_0_l (sum_by f l)), <- fold_u32.
  induction l as [|x l _] using rev_ind; [reflexivity|].
  rewrite fold_left_app. cbn. now rewrite u32_idem.
Qed.

Lemma num_disjoint_sum (l : list (node_stats D)) : num_disjoint_secs l = u32 (sum_by ns_sec_disjoint l).
Proof. apply fold_u32'. Qed.
Lemma num_maxflow_sum (l : list (node_stats D)) : num_maxflow_secs l = u32 (sum_by ns_sec_maxflow l).
Proof. apply fold_u32'. Qed.
End Sums.

(** ** Time stamps *)

Lemma sapp_inj_r (a b c : string) : (a ++ c = b ++ c)%string -> a = b.
Proof.
  intro H. apply (f_equal list_ascii_of_string) in H. rewrite !list_ascii_app in H.
  apply app_inv_tail in H. apply (f_equal string_of_list_ascii) in H.
  now rewrite !string_of_list_ascii_of_string in H.
Qed.

Lemma stamp_split a b : Forall (fun c => c <> "."%char) (list_ascii_of_string a) ->
  split "."%char (a ++ "." ++ b)%string = a :: split "."%char b.
Proof. intro H. cbn. now rewrite split_app. Qed.

Lemma dec_no_dot z : Forall (fun c => c <> "."%char) (list_ascii_of_string (dec z)).
Proof.
  eapply Forall_impl; [|apply dec_digits].
  intros c H. unfold digit_or_sign in H. cbn in H.
  repeat (destruct H as [<-|H]; [discriminate|]). contradiction.
Qed.

Lemma time_to_string_inj strf tz t t' :
  (forall a b, strf a = strf b -> a = b) ->
  (forall a, Forall (fun c => c <> "."%char) (list_ascii_of_string (strf a))) ->
  time_to_string strf tz t = time_to_string strf tz t' -> t = t'.
Proof.
  intros Hi Hd H. apply (f_equal (split "."%char)) in H. unfold time_to_string in H.
  rewrite !stamp_split in H by apply Hd. injection H as H1 H2.
  apply Hi in H1.
  assert (N : forall z, Forall (fun c => c <> "."%char) (list_ascii_of_string (dec z ++ "Z"))).
  { intro z. rewrite list_ascii_app. apply Forall_app. split; [apply dec_no_dot|]. constructor; [discriminate|constructor]. }
  rewrite !split_none in H2 by apply N. injection H2 as H2. apply sapp_inj_r in H2. apply dec_inj in H2.
  pose proof (Z.quot_rem' t 1000). pose proof (Z.quot_rem' t' 1000). lia.
Qed.

Lemma stamp_clean strf tz t : (forall a, clean (strf a)) -> clean (time_to_string strf tz t).
Proof.
  intro H. unfold time_to_string, clean. rewrite !list_ascii_app. apply Forall_app. split; [apply H|].
  apply Forall_app. split; [constructor; [split; discriminate|constructor]|].
  apply Forall_app. split; [apply dec_clean|]. constructor; [split; discriminate|constructor].
Qed.
