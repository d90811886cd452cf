(** * P_Plot: proofs about the drawings and figures *)
From Coq Require Import String QArith Qpower.
From Verif Require Import Base P_Base M_Python M_PyWrap M_RunAlg M_Compare M_Csv M_Tables M_Summary M_Plot Spec_Lab Spec_Tables Spec_Plot P_Lookup P_Tables P_Summary.
Open Scope nat_scope.
Open Scope string_scope.

(** ** Lines *)
Fixpoint pairs {A} (l : list A) : list (A * A) :=
  match l with a :: rest => match rest with [] => [] | b :: _ => (a, b) :: pairs rest end | [] => [] end.
Definition flat2 {A} (l : list (A * A)) : list A := concat (map (fun pq => [fst pq; snd pq]) l).

Lemma pairs_iff : forall A (l : list A) p q, In (p, q) (pairs l) <-> exists i, nth_error l i = Some p /\ nth_error l (S i) = Some q.
Proof.
  induction l as [|a [|b l] IH]; intros p q.
  - simpl. split; [intros []|intros [[|i] [E _]]; discriminate].
  - simpl. split; [intros []|intros [[|[|i]] [E F]]; discriminate].
  - change (pairs (a :: b :: l)) with ((a, b) :: pairs (b :: l)). simpl In. rewrite IH. split.
    + intros [E|[i [E F]]]; [injection E as -> ->; exists 0; auto|exists (S i); auto].
    + intros [[|i] [E F]]; [left; injection E as ->; injection F as ->; reflexivity|right; exists i; auto].
Qed.
Lemma walk_pairs_eq : forall l, walk_pairs l = pairs l.
Proof. induction l as [|a [|b l] IH]; [reflexivity|reflexivity|]. change ((a, b) :: walk_pairs (b :: l) = (a, b) :: pairs (b :: l)). rewrite IH. reflexivity. Qed.

Lemma in_two : forall A (x a b : A) r, In x (a :: b :: r) <-> a = x \/ b = x \/ In x r.
Proof. intros. simpl. reflexivity. Qed.
Lemma pairs_flat : forall A (l : list (A * A)) p q, In (p, q) (pairs (flat2 l)) <->
  In (p, q) l \/ exists i a b, nth_error l i = Some (a, p) /\ nth_error l (S i) = Some (q, b).
Proof.
  induction l as [|[a b] l IH]; intros p q.
  - simpl. split; [intros []|intros [[]|[[|i] [x [y [E _]]]]]; discriminate].
  - destruct l as [|[c d] l].
    + simpl. split; [intros [E|[]]; left; left; exact E|]. intros [[E|[]]|[[|[|i]] [x [y [E F]]]]]; [left; exact E|discriminate F|discriminate E|discriminate E].
    + change (pairs (flat2 ((a, b) :: (c, d) :: l))) with ((a, b) :: (b, c) :: pairs (flat2 ((c, d) :: l))).
      rewrite in_two, IH. split.
      * intros [E|[E|[E|[i [x [y [E F]]]]]]].
        -- left. left. exact E.
        -- injection E as -> ->. right. exists 0, a, d. auto.
        -- left. right. exact E.
        -- right. exists (S i), x, y. auto.
      * intros [[E|E]|[[|i] [x [y [E F]]]]].
        -- left. exact E.
        -- right. right. left. exact E.
        -- right. left. injection E as _ ->. injection F as -> _. reflexivity.
        -- right. right. right. exists i, x, y. auto.
Qed.

Lemma find_label : forall vs u, (exists v, find (fun v => Nat.eqb (vr_label v) u) vs = Some v /\ In v vs /\ vr_label v = u) \/
  (find (fun v => Nat.eqb (vr_label v) u) vs = None /\ ~ In u (map vr_label vs)).
Proof.
  intros vs u. destruct (find _ vs) as [v|] eqn:F.
  - left. exists v. apply find_some in F. destruct F as [I E]. apply Nat.eqb_eq in E. auto.
  - right. split; [reflexivity|]. intros I. apply in_map_iff in I. destruct I as [v [E I]].
    pose proof (find_none _ _ F v I) as N. simpl in N. rewrite E, Nat.eqb_refl in N. discriminate.
Qed.
Lemma at_point_one : forall vs u p p', NoDup (map vr_label vs) -> at_point vs u p -> at_point vs u p' -> p = p'.
Proof.
  intros vs u p p' N [v [I [E ->]]] [v' [I' [E' ->]]].
  assert (v = v') as ->; [|reflexivity]. subst u. revert I I' E'. clear - N. induction vs as [|w vs IH]; intros I I' E; [destruct I|].
  simpl in N. inversion N as [|a l NI N']; subst. destruct I as [->|I], I' as [->|I']; auto.
  - exfalso. apply NI. rewrite <- E. apply in_map. exact I'.
  - exfalso. apply NI. rewrite E. apply in_map. exact I.
Qed.

Definition ends (vs : list vertex_row) (e : edge_row) (pq : (Q * Q) * (Q * Q)) : Prop :=
  exists v w, find (fun v => Nat.eqb (vr_label v) (fst e)) vs = Some v /\ find (fun v => Nat.eqb (vr_label v) (snd e)) vs = Some w /\
    pq = ((vr_x v, vr_y v), (vr_x w, vr_y w)).
Lemma ends_exist : forall vs es, (forall e, In e es -> In (fst e) (map vr_label vs) /\ In (snd e) (map vr_label vs)) ->
  exists pqs, Forall2 (ends vs) es pqs.
Proof.
  induction es as [|e es IH]; intros H; [exists []; constructor|].
  destruct IH as [pqs F]; [intros; apply H; simpl; auto|]. destruct (H e (or_introl eq_refl)) as [A B].
  destruct (find_label vs (fst e)) as [[v [Fv _]]|[_ C]]; [|contradiction].
  destruct (find_label vs (snd e)) as [[w [Fw _]]|[_ C]]; [|contradiction].
  eexists (_ :: pqs). constructor; [|exact F]. exists v, w. auto.
Qed.
Lemma coordinates_ok : forall vs (f : vertex_row -> Q) (g : Q * Q -> Q), (forall v, g (vr_x v, vr_y v) = f v) -> forall es pqs,
  Forall2 (ends vs) es pqs -> edge_coordinates f es vs = Ok (map g (flat2 pqs)).
Proof.
  intros vs f g G es pqs F. unfold edge_coordinates.
  rewrite (mapM_all _ _ _ es (map (fun pq => [g (fst pq); g (snd pq)]) pqs)).
  - simpl. f_equal. unfold flat2. rewrite concat_map, map_map. reflexivity.
  - induction F as [|e pq es pqs [v [w [A [B ->]]]] F IH]; simpl; constructor; auto. unfold at_label. rewrite A, B. simpl. rewrite !G. reflexivity.
Qed.
Lemma line_pairs : forall xs w c p q, line_drawn (mkScatter (map fst xs) (map snd xs) "lines" w c) p q <-> In (p, q) (pairs xs).
Proof.
  intros xs w c [p1 p2] [q1 q2]. rewrite pairs_iff. unfold line_drawn. cbn [sc_mode sc_x sc_y fst snd].
  assert (X : forall i a b, nth_error (map fst xs) i = Some a /\ nth_error (map snd xs) i = Some b <-> nth_error xs i = Some (a, b)).
  { intros i a b. rewrite !nth_error_map. destruct (nth_error xs i) as [[x y]|]; simpl; [|split; [intros []|]; discriminate].
    split; [intros [A B]; congruence|intros E; injection E; intros -> ->; auto]. }
  split.
  - intros [_ [i [A [B [C D]]]]]. exists i. split; apply X; auto.
  - intros [i [A B]]. apply X in A, B. split; [reflexivity|]. exists i. tauto.
Qed.
Lemma ends_lines : forall vs es pqs, NoDup (map vr_label vs) -> Forall2 (ends vs) es pqs -> forall p q,
  In (p, q) (pairs (flat2 pqs)) <-> edge_line es vs p q \/ joint_line es vs p q.
Proof.
  intros vs es pqs N F p q. rewrite pairs_flat.
  assert (P : forall e pq, ends vs e pq -> at_point vs (fst e) (fst pq) /\ at_point vs (snd e) (snd pq)).
  { intros e pq [v [w [A [B ->]]]]. apply find_some in A, B. destruct A as [A A'], B as [B B']. apply Nat.eqb_eq in A', B'.
    split; [exists v|exists w]; auto. }
  assert (NE : forall i e, nth_error es i = Some e -> exists pq, nth_error pqs i = Some pq /\ ends vs e pq).
  { clear - F. induction F as [|e pq es pqs E F IH]; intros [|i] x H; try discriminate; simpl in *; [injection H as <-; eauto|apply IH; exact H]. }
  assert (NP : forall i pq, nth_error pqs i = Some pq -> exists e, nth_error es i = Some e /\ ends vs e pq).
  { clear - F. induction F as [|e pq es pqs E F IH]; intros [|i] x H; try discriminate; simpl in *; [injection H as <-; eauto|apply IH; exact H]. }
  split.
  - intros [I|[i [a [b [A B]]]]].
    + left. apply In_nth_error in I. destruct I as [i I]. destruct (NP i _ I) as [e [E H]]. exists e. split; [eapply nth_error_In; exact E|]. apply (P _ _ H).
    + right. destruct (NP i _ A) as [e [E H]]. destruct (NP (S i) _ B) as [e' [E' H']]. exists i, e, e'. split; [exact E|]. split; [exact E'|].
      split; [apply (P _ _ H)|apply (P _ _ H')].
  - intros [[e [I [A B]]]|[i [e [e' [E [E' [A B]]]]]]].
    + left. apply In_nth_error in I. destruct I as [i I]. destruct (NE i _ I) as [[p' q'] [X H]]. destruct (P _ _ H) as [A' B'].
      rewrite (at_point_one _ _ _ _ N A A'), (at_point_one _ _ _ _ N B B'). eapply nth_error_In. exact X.
    + right. destruct (NE i _ E) as [[p' q'] [X H]]. destruct (NE (S i) _ E') as [[p2 q2] [X2 H2]].
      destruct (P _ _ H) as [_ A']. destruct (P _ _ H2) as [B' _].
      rewrite (at_point_one _ _ _ _ N A A'), (at_point_one _ _ _ _ N B B'). exists i, p', q2. auto.
Qed.

Lemma edge_scatter_ok : forall es vs line, NoDup (map vr_label vs) ->
  (forall e, In e es -> In (fst e) (map vr_label vs) /\ In (snd e) (map vr_label vs)) ->
  exists s, edge_scatter es vs line = Ok s /\ (sc_width s, sc_color s) = match line with Some l => l | None => ((1 # 2)%Q, "#888") end /\
    forall p q, line_drawn s p q <-> edge_line es vs p q \/ joint_line es vs p q.
Proof.
  intros es vs line N H. destruct (ends_exist vs es H) as [pqs F].
  unfold edge_scatter. rewrite (coordinates_ok vs vr_x fst (fun v => eq_refl) es pqs F), (coordinates_ok vs vr_y snd (fun v => eq_refl) es pqs F). cbn [bind].
  destruct line as [[w c]|]; (eexists; split; [reflexivity|]; split; [reflexivity|]; intros p q; rewrite line_pairs; apply ends_lines; assumption).
Qed.
Lemma edge_scatter_missing : forall es vs line e, In e es -> ~ In (fst e) (map vr_label vs) \/ ~ In (snd e) (map vr_label vs) ->
  edge_scatter es vs line = Throw KeyErrorPy.
Proof.
  intros es vs line e I B. unfold edge_scatter, edge_coordinates.
  destruct (mapM_throw (fun e => do a <- at_label vr_x vs (fst e); do b <- at_label vr_x vs (snd e); Ok [a; b])
    (fun e _ => In (fst e) (map vr_label vs) /\ In (snd e) (map vr_label vs)) (fun _ => True) KeyErrorPy es) as [[r [_ F]]|[E _]].
  - intros a _. unfold at_label. destruct (find_label vs (fst a)) as [[v [-> [Iv Ev]]]|[-> C]]; [|right; auto].
    destruct (find_label vs (snd a)) as [[w [-> [Iw Ew]]]|[-> C]]; [|right; auto]. left. eexists. split; [reflexivity|].
    split; [rewrite <- Ev|rewrite <- Ew]; apply in_map; assumption.
  - exfalso. apply In_nth_error in I. destruct I as [i I]. revert i I. induction F as [|x y l l' [A C] F IH]; intros [|i] I; try discriminate; simpl in I.
    + injection I as ->. tauto.
    + eapply IH. exact I.
  - rewrite E. reflexivity.
Qed.

Lemma pair_eqb_eq : forall a b, pair_eqb a b = true <-> a = b.
Proof. intros [a b] [c d]. unfold pair_eqb. simpl. rewrite Bool.andb_true_iff, !Nat.eqb_eq. split; [intros [-> ->]; reflexivity|intros E; injection E; auto]. Qed.
Lemma in_walk : forall walk u v, existsb (pair_eqb (u, v)) (walk_pairs walk) = true <-> consecutive walk u v.
Proof.
  intros walk u v. unfold consecutive. rewrite <- pairs_iff, <- walk_pairs_eq, existsb_exists. split.
  - intros [x [I E]]. apply pair_eqb_eq in E. subst x. exact I.
  - intros I. exists (u, v). split; [exact I|]. apply pair_eqb_eq. reflexivity.
Qed.
Lemma consecutive_in : forall walk u v, consecutive walk u v -> In u walk /\ In v walk.
Proof. intros walk u v [i [A B]]. split; eapply nth_error_In; eassumption. Qed.

Lemma at_point_filter : forall vs (tour : list nat) u p, In u tour ->
  (at_point (filter (fun v => existsb (Nat.eqb (vr_label v)) tour) vs) u p <-> at_point vs u p).
Proof.
  intros vs tour u p I. unfold at_point. split; intros [v [A B]]; exists v; (split; [|exact B]).
  - apply filter_In in A. apply A.
  - apply filter_In. split; [exact A|]. apply existsb_exists. exists u. split; [exact I|]. apply Nat.eqb_eq. apply B.
Qed.
Lemma nodup_filter_labels : forall vs f, NoDup (map vr_label vs) -> NoDup (map vr_label (filter f vs)).
Proof.
  induction vs as [|v vs IH]; intros f N; simpl; [constructor|]. simpl in N. inversion N as [|a l NI N']; subst.
  destruct (f v); [|apply IH; exact N']. simpl. constructor; [|apply IH; exact N']. intros I. apply NI. apply in_map_iff in I.
  destruct I as [w [E I]]. rewrite <- E. apply in_map. apply filter_In in I. apply I.
Qed.

Lemma tour_ok : forall tour es vs color, NoDup (map vr_label vs) ->
  (forall e, In e es -> tour_edge tour e -> In (fst e) (map vr_label vs) /\ In (snd e) (map vr_label vs)) ->
  exists s sub, tour_edges_trace tour es vs color = Ok s /\ sc_color s = color /\ sc_width s = 1%Q /\ selected (tour_edge tour) es sub /\
    forall p q, line_drawn s p q <-> edge_line sub vs p q \/ joint_line sub vs p q.
Proof.
  intros tour es vs color N H. unfold tour_edges_trace.
  set (f := fun e : edge_row => (existsb (pair_eqb (fst e, snd e)) (walk_pairs tour) || existsb (pair_eqb (snd e, fst e)) (walk_pairs tour))%bool).
  set (vs' := filter (fun v => existsb (Nat.eqb (vr_label v)) tour) vs).
  assert (T : forall e, f e = true <-> tour_edge tour e).
  { intros e. unfold f, tour_edge. rewrite Bool.orb_true_iff, !in_walk. reflexivity. }
  assert (IT : forall e, tour_edge tour e -> In (fst e) tour /\ In (snd e) tour).
  { intros e [C|C]; apply consecutive_in in C; tauto. }
  assert (L : forall e, In e (filter f es) -> In (fst e) tour /\ In (snd e) tour).
  { intros e I. apply filter_In in I. apply IT, T, I. }
  assert (IL : forall u, In u tour -> In u (map vr_label vs) -> In u (map vr_label vs')).
  { intros u I J. apply in_map_iff in J. destruct J as [v [E J]]. apply in_map_iff. exists v. split; [exact E|]. apply filter_In. split; [exact J|].
    apply existsb_exists. exists u. split; [exact I|]. apply Nat.eqb_eq. exact E. }
  destruct (edge_scatter_ok (filter f es) vs' (Some (1%Q, color))) as [s [E [W D]]].
  - apply nodup_filter_labels. exact N.
  - intros e I. destruct (L e I) as [A B]. apply filter_In in I. destruct I as [I F]. apply T in F. destruct (H e I F) as [X Y]. split; apply IL; assumption.
  - injection W as W C. exists s, (filter f es). split; [exact E|]. split; [exact C|]. split; [exact W|].
    split; [apply filter_selected; intros; apply T|]. intros p q. rewrite D. unfold edge_line, joint_line. split; (intros [[e [I [A B]]]|[i [e [e' [X [Y [A B]]]]]]]; [left; exists e|right; exists i, e, e']).
    + destruct (L e I) as [P Q]. split; [exact I|]. split; [apply (at_point_filter vs tour _ p P), A|apply (at_point_filter vs tour _ q Q), B].
    + destruct (L e (nth_error_In _ _ X)) as [_ P]. destruct (L e' (nth_error_In _ _ Y)) as [Q _]. split; [exact X|]. split; [exact Y|].
      split; [apply (at_point_filter vs tour _ p P), A|apply (at_point_filter vs tour _ q Q), B].
    + destruct (L e I) as [P Q]. split; [exact I|]. split; [apply (at_point_filter vs tour _ p P), A|apply (at_point_filter vs tour _ q Q), B].
    + destruct (L e (nth_error_In _ _ X)) as [_ P]. destruct (L e' (nth_error_In _ _ Y)) as [Q _]. split; [exact X|]. split; [exact Y|].
      split; [apply (at_point_filter vs tour _ p P), A|apply (at_point_filter vs tour _ q Q), B].
Qed.
Lemma joint_point : forall es vs, NoDup (map vr_label vs) -> (forall i e e', nth_error es i = Some e -> nth_error es (S i) = Some e' -> snd e = fst e') ->
  forall p q, joint_line es vs p q -> p = q.
Proof.
  intros es vs N C p q [i [e [e' [E [E' [A B]]]]]]. rewrite (C i e e' E E') in A. exact (at_point_one _ _ _ _ N A B).
Qed.

(** ** Figures *)
Definition named (t : list joined) (rows : list named_row) : Prop := Forall2 (fun j r => fst r = j /\ short_name (h_algorithm (j_heur j)) = Ok (snd r)) t rows.
Lemma give_short_names_ok : forall t, (forall j, In j t -> exists s, In (h_algorithm (j_heur j), s) names) -> exists rows, give_short_names t = Ok rows /\ named t rows.
Proof.
  intros t H. apply mapM_exists. intros j I. destruct (H j I) as [s N]. rewrite (short_name_ok _ _ N). exists (j, s). split; [reflexivity|].
  split; reflexivity.
Qed.
Lemma give_short_names_bad : forall t j, In j t -> (forall s, ~ In (h_algorithm (j_heur j), s) names) -> give_short_names t = Throw KeyErrorPy.
Proof.
  intros t j I B. unfold give_short_names.
  destruct (mapM_throw (fun j => do s <- short_name (h_algorithm (j_heur j)); Ok (j, s)) (fun j _ => exists s, In (h_algorithm (j_heur j), s) names) (fun _ => True) KeyErrorPy t) as [[r [_ F]]|[E _]]; [| |exact E].
  - intros a _. destruct (short_name_cases (h_algorithm (j_heur a))) as [[s [-> N]]|[-> _]]; [left; exists (a, s); split; [reflexivity|exists s; exact N]|right; auto].
  - exfalso. clear - F I B. induction F as [|x y l l' [s N] F IH]; [destruct I|]. destruct I as [->|I]; [exact (B s N)|exact (IH I)].
Qed.
Lemma named_fst : forall t rows, named t rows -> map fst rows = t.
Proof. induction 1 as [|j r t rows [E _] F IH]; simpl; [reflexivity|]. rewrite E, IH. reflexivity. Qed.
Lemma named_in : forall t rows, named t rows -> forall r, In r rows -> short_name (h_algorithm (j_heur (fst r))) = Ok (snd r).
Proof. induction 1 as [|j r t rows [E S] F IH]; intros x I; [destruct I|]. destruct I as [<-|I]; [rewrite E; exact S|exact (IH x I)]. Qed.
Lemma name_iff : forall a name s, In a drawn -> short_name name = Ok s -> (String.eqb s (fst (snd a)) = true <-> name = fst a).
Proof.
  intros a name s I E. destruct (short_name_cases name) as [[s' [E' N]]|[E' _]]; [|rewrite E' in E; discriminate]. rewrite E' in E. injection E as ->. clear E'.
  rewrite String.eqb_eq. unfold drawn in I. unfold names in N. cbn [In] in I, N.
  repeat match goal with H : _ \/ _ |- _ => destruct H end; try contradiction; subst a; cbn [fst snd];
    match goal with H : (_, _) = _ |- _ => injection H as <- <- end; split; intros X; first [reflexivity | discriminate X].
Qed.

Definition the_box (rows : list named_row) (a : string * (string * string)) (k : option Z) (legend : bool) (i : nat) : box :=
  let rows := filter (fun r => String.eqb (snd r) (fst (snd a))) rows in
  mkBox (map (fun _ => k) rows) (map (fun r => j_gap (fst r)) rows) k (fst (snd a)) legend (snd (snd a)) i.
Lemma add_traces_ok : forall rows a legend k, In a drawn -> add_traces_heuristic rows (fst (snd a)) legend k = Ok [the_box rows a k legend 1; the_box rows a k false 2].
Proof.
  intros rows a legend k I. unfold drawn in I. cbn [In] in I. repeat match goal with H : _ \/ _ |- _ => destruct H end; try contradiction; subst a; reflexivity.
Qed.
Definition kappa_part (rows : list named_row) (cost : string) (k : option Z) : list named_row :=
  filter (fun r => String.eqb (h_cost_function (j_heur (fst r))) cost) (filter (same_kappa k) rows).
Lemma the_box_shows : forall t rows cost k a legend i, named t rows -> In a drawn -> box_shows t cost k a legend i (the_box (kappa_part rows cost k) a k legend i).
Proof.
  intros t rows cost k a legend i N I. unfold box_shows, the_box. cbn [bx_name bx_color bx_row bx_group bx_legend bx_y bx_x].
  repeat (split; [reflexivity|]). unfold kappa_part.
  assert (FF : forall A (f g : A -> bool) l, filter f (filter g l) = filter (fun x => (g x && f x)%bool) l).
  { clear. induction l as [|x l IH]; simpl; [reflexivity|]. destruct (g x); simpl; [destruct (f x); simpl; rewrite IH; reflexivity|exact IH]. }
  rewrite !FF. set (f := fun x : named_row => _). exists (map fst (filter f rows)). split.
  - rewrite <- (named_fst t rows N) at 1. apply selected_map. apply filter_selected. intros r R. unfold f, row_of_box.
    rewrite !Bool.andb_true_iff, (name_iff a _ _ I (named_in t rows N r R)), String.eqb_eq.
    assert (K : same_kappa k r = true <-> exists z, k = Some z /\ h_kappa (j_heur (fst r)) = Some z).
    { unfold same_kappa. destruct (h_kappa (j_heur (fst r))) as [x|]; [destruct k as [y|]|]; try (split; [discriminate|intros [z [A B]]; discriminate]).
      rewrite Z.eqb_eq. split; [intros ->; exists y; auto|intros [z [A B]]; congruence]. }
    rewrite K. tauto.
  - rewrite !map_map. auto.
Qed.

Lemma opt_eqb_eq : forall a b : option Z, opt_eqb Z.eqb a b = true <-> a = b.
Proof. intros [a|] [b|]; simpl; try (split; [discriminate|discriminate]); [rewrite Z.eqb_eq; split; [intros ->; reflexivity|congruence]|tauto]. Qed.

Lemma kappa_boxes_ok : forall t rows cost, named t rows -> forall kappas legend, NoDup kappas ->
  exists bs, kappa_boxes rows cost kappas legend = Ok (bs, match kappas with [] => legend | _ => false end) /\ figure_shows t cost legend kappas bs.
Proof.
  intros t rows cost N. induction kappas as [|k ks IH]; intros legend D; [exists []; split; [reflexivity|constructor]|].
  inversion D as [|x l NI D']; subst. destruct (IH false D') as [bs [E F]].
  exists ((concat (map (fun a => [the_box (kappa_part rows cost k) a k legend 1; the_box (kappa_part rows cost k) a k false 2]) drawn) ++ bs)%list). split.
  - cbn [kappa_boxes]. change plotted_algorithms with (map (fun a => fst (snd a)) drawn).
    rewrite (mapM_all _ _ _ _ (map (fun a => [the_box (kappa_part rows cost k) a k legend 1; the_box (kappa_part rows cost k) a k false 2]) drawn)).
    + cbn [bind]. rewrite E. cbn [bind]. destruct ks; reflexivity.
    + assert (G : forall l, (forall a, In a l -> In a drawn) -> Forall2 (fun a b => add_traces_heuristic (kappa_part rows cost k) a legend k = Ok b) (map (fun a => fst (snd a)) l)
        (map (fun a => [the_box (kappa_part rows cost k) a k legend 1; the_box (kappa_part rows cost k) a k false 2]) l)).
      { induction l as [|a l IHl]; intros H; simpl; constructor; [apply add_traces_ok, H; simpl; auto|apply IHl; intros; apply H; simpl; auto]. }
      apply G. auto.
  - unfold figure_shows. change (list_prod (k :: ks) drawn) with (map (fun y => (k, y)) drawn ++ list_prod ks drawn)%list. rewrite list_prod_app. apply Forall2_app.
    + assert (G : forall l, (forall a, In a l -> In a drawn) -> Forall2 (fun kai b => let '(k', a, i) := kai in box_shows t cost k' a (legend && Nat.eqb i 1 && opt_eqb Z.eqb k' k)%bool i b)
        (list_prod (map (fun y => (k, y)) l) [1; 2]) (concat (map (fun a => [the_box (kappa_part rows cost k) a k legend 1; the_box (kappa_part rows cost k) a k false 2]) l))).
      { assert (K : opt_eqb Z.eqb k k = true) by (apply opt_eqb_eq; reflexivity).
        induction l as [|a l IHl]; intros H; [constructor|]. cbn [map list_prod concat app].
        constructor; [|constructor; [|apply IHl; intros; apply H; simpl; auto]]; rewrite K; cbn [Nat.eqb]; rewrite ?Bool.andb_false_r, ?Bool.andb_true_r, ?Bool.andb_false_l;
          apply the_box_shows; [exact N|apply H; simpl; auto|exact N|apply H; simpl; auto]. }
      apply G. auto.
    + unfold figure_shows in F. revert F. generalize (match ks with k0 :: _ => Some k0 | [] => None end). intros _.
      assert (G : forall l (c1 c2 : option Z -> bool) bs, (forall x, In x l -> fst (fst x) <> k) -> 
        Forall2 (fun kai b => let '(k', a, i) := kai in box_shows t cost k' a (false && Nat.eqb i 1 && c1 k')%bool i b) l bs ->
        Forall2 (fun kai b => let '(k', a, i) := kai in box_shows t cost k' a (legend && Nat.eqb i 1 && opt_eqb Z.eqb k' k)%bool i b) l bs).
      { intros l c1 _ bs0 H F. induction F as [|[[k' a] i] b l l' S F IHF]; constructor; [|apply IHF; intros; apply H; simpl; auto].
        cbn [andb] in S. assert (X : opt_eqb Z.eqb k' k = false).
        { destruct (opt_eqb Z.eqb k' k) eqn:O; [|reflexivity]. apply opt_eqb_eq in O. exfalso. apply (H (k', a, i)); [simpl; auto|exact O]. }
        rewrite X, Bool.andb_false_r. exact S. }
      intros F. apply (G _ (fun k' => match ks with k0 :: _ => opt_eqb Z.eqb k' k0 | [] => false end) (fun _ => true)); [|exact F].
      intros [[k' a] i] I. apply in_prod_iff in I. destruct I as [I _]. apply in_prod_iff in I. simpl. intros ->. apply NI. apply I.
Qed.

Lemma figures_ok : forall parent dir t l, (dir || parent = true)%bool ->
  (forall j, In j t \/ In j l -> exists s, In (h_algorithm (j_heur j), s) names) ->
  exists kappas b1 b2, NoDup kappas /\ (forall k, In k kappas <-> exists j, In j t /\ h_kappa (j_heur j) = k) /\
    figure_shows t "EUC_2D" true kappas b1 /\ figure_shows t "MST" false kappas b2 /\
    plot_heuristics_figure parent dir (Ok t) (Ok l) = (true, Ok [("tspwplib_EUC_2D_heuristics.pdf", mkFigure b1 y_axes x_range);
      ("tspwplib_MST_heuristics.pdf", mkFigure b2 y_axes x_range)]).
Proof.
  intros parent dir t l D H. destruct (give_short_names_ok t) as [rows [E N]]; [auto|]. destruct (give_short_names_ok l) as [rl [El _]]; [auto|].
  set (ks := distinct (opt_eqb Z.eqb) (map (fun r => h_kappa (j_heur (fst r))) rows)).
  destruct (distinct_ok _ _ opt_eqb_eq (map (fun r : named_row => h_kappa (j_heur (fst r))) rows)) as [ND M]. fold ks in ND, M.
  destruct (kappa_boxes_ok t rows "EUC_2D" N ks true ND) as [b1 [E1 F1]].
  destruct (kappa_boxes_ok t rows "MST" N ks (match ks with [] => true | _ => false end) ND) as [b2 [E2 F2]].
  exists ks, b1, b2. split; [exact ND|]. split; [|split; [exact F1|split]].
  - intros k. unfold ks. rewrite M, <- (named_fst t rows N), in_map_iff. split.
    + intros [r [A B]]. exists (fst r). split; [apply in_map; exact B|exact A].
    + intros [j [A B]]. apply in_map_iff in A. destruct A as [r [<- I]]. eauto.
  - destruct ks; [inversion F2; constructor|exact F2].
  - unfold plot_heuristics_figure. rewrite D. cbn [bind]. rewrite E, El. cbn [bind cost_figures]. fold ks. rewrite E1. cbn [bind]. rewrite E2. cbn [bind]. reflexivity.
Qed.

Lemma figure_no_legend : forall t cost kappas bs, figure_shows t cost false kappas bs -> ~ exists b, In b bs /\ bx_legend b = true.
Proof.
  unfold figure_shows. intros t cost kappas bs F [b [I L]]. revert I. induction F as [|[[k a] i] b' l l' S F IH]; [intros []|].
  intros [->|I]; [|exact (IH I)]. destruct S as (_ & _ & _ & _ & S & _). simpl in S. congruence.
Qed.
Lemma figure_legend : forall t cost k kappas bs, figure_shows t cost true (k :: kappas) bs -> forall b, In b bs -> (bx_legend b = true <-> bx_row b = 1 /\ bx_group b = k).
Proof.
  unfold figure_shows. intros t cost k kappas bs F b. generalize dependent (list_prod (list_prod (k :: kappas) drawn) [1; 2]). intros L F.
  induction F as [|[[k' a] i] b' l l' S F IH]; [intros []|]. intros [->|I]; [|exact (IH I)].
  destruct S as (_ & _ & R & G & S & _). rewrite S, R, G. simpl. rewrite Bool.andb_true_iff, Nat.eqb_eq, opt_eqb_eq. reflexivity.
Qed.

Lemma seen_iff : forall bs b g, gap_seen (mkFigure bs y_axes x_range) b g <->
  bx_row b = 1 /\ (1 # 100 <= g /\ g <= 100 # 1)%Q \/ bx_row b = 2 /\ (- (1 # 1000) <= g /\ g <= 9 # 1000)%Q.
Proof.
  intros bs b g. unfold gap_seen, y_axes. cbn [fg_yaxes In].
  assert (A : on_axis (mkYaxis 1 true (- (2 # 1)) (2 # 1)) g <-> (1 # 100 <= g /\ g <= 100 # 1)%Q).
  { unfold on_axis. cbn [ya_log ya_low ya_high]. split.
    - intros [lo [hi [L [H [X Y]]]]]. assert (lo = (-2)%Z) as -> by (unfold Qeq, inject_Z in L; simpl in L; lia). assert (hi = 2%Z) as -> by (unfold Qeq, inject_Z in H; simpl in H; lia).
      split; [exact X|exact Y].
    - intros [X Y]. exists (-2)%Z, 2%Z. split; [reflexivity|]. split; [reflexivity|]. split; [exact X|exact Y]. }
  assert (B : on_axis (mkYaxis 2 false (- (1 # 1000)) ((1 # 100) - (1 # 1000))) g <-> (- (1 # 1000) <= g /\ g <= 9 # 1000)%Q).
  { unfold on_axis. cbn [ya_log ya_low ya_high]. assert (X : ((1 # 100) - (1 # 1000) == 9 # 1000)%Q) by reflexivity. rewrite X. reflexivity. }
  split.
  - intros [ax [[<-|[<-|[]]] [R S]]]; cbn [ya_row] in R; [left; apply A in S|right; apply B in S]; auto.
  - intros [[R S]|[R S]]; [apply A in S|apply B in S]; eexists; (split; [|split; [|exact S]]); simpl; auto.
Qed.
Lemma category_iff : forall bs ya n, category_seen (mkFigure bs ya x_range) n <-> n < 5.
Proof. intros bs ya n. unfold category_seen, x_range, Qle, inject_Z. simpl. lia. Qed.

Lemma bands_iff : forall bs ya x, (fst (fg_xrange (mkFigure bs ya x_range)) <= x /\ x <= snd (fg_xrange (mkFigure bs ya x_range)))%Q <->
  exists n, n < 5 /\ (inject_Z (Z.of_nat n) - (1 # 2) <= x /\ x <= inject_Z (Z.of_nat n) + (1 # 2))%Q.
Proof.
  intros bs ya x. cbn [fg_xrange x_range fst snd]. split.
  - intros [A B].
    assert (C : forall n, n < 5 -> (inject_Z (Z.of_nat n) - (1 # 2) <= x)%Q -> exists n, n < 5 /\ (inject_Z (Z.of_nat n) - (1 # 2) <= x /\ x <= inject_Z (Z.of_nat n) + (1 # 2))%Q).
    { intros n L. remember (4 - n) as k eqn:K. revert n L K. induction k as [|k IH]; intros n L K D.
      - exists n. split; [exact L|]. split; [exact D|]. replace n with 4 by lia. exact B.
      - destruct (Qlt_le_dec (inject_Z (Z.of_nat n) + (1 # 2)) x) as [E|E]; [|exists n; auto].
        apply (IH (S n)); [lia|lia|]. rewrite Nat2Z.inj_succ. unfold Z.succ. rewrite inject_Z_plus. apply Qlt_le_weak in E.
        eapply Qle_trans; [|exact E]. unfold Qle, Qminus, Qplus, Qopp, inject_Z. simpl. lia. }
    apply (C 0); [lia|exact A].
  - intros [n [L [A B]]]. split; [eapply Qle_trans; [|exact A]|eapply Qle_trans; [exact B|]];
      unfold Qle, Qminus, Qplus, Qopp, inject_Z; simpl; lia.
Qed.
Lemma no_colour : forall rows algorithm showlegend group,
  ~ In algorithm ["BFS-EC"; "BFS-PEC"; "SBL-EC"; "SBL"; "SBL-PEC"] -> add_traces_heuristic rows algorithm showlegend group = Throw KeyErrorPy.
Proof.
  intros rows a sl g N. unfold add_traces_heuristic, colormap. cbn [find fst].
  assert (E : forall x, In x ["BFS-EC"; "BFS-PEC"; "SBL-EC"; "SBL"; "SBL-PEC"] -> String.eqb x a = false).
  { intros x I. apply String.eqb_neq. intros ->. exact (N I). }
  rewrite !E by (simpl; tauto).
  reflexivity.
Qed.

Lemma stops : forall parent dir t l,
  (dir || parent = false -> plot_heuristics_figure parent dir t l = (false, Throw FileNotFoundErrorPy))%bool /\
  (dir || parent = true ->
    (forall e, t = Throw e -> plot_heuristics_figure parent dir t l = (true, Throw e)) /\
    (forall t' e, t = Ok t' -> l = Throw e -> plot_heuristics_figure parent dir t l = (true, Throw e)) /\
    (forall t' l' j, t = Ok t' -> l = Ok l' -> In j t' \/ In j l' -> (forall s, ~ In (h_algorithm (j_heur j), s) names) ->
       plot_heuristics_figure parent dir t l = (true, Throw KeyErrorPy)))%bool.
Proof.
  intros parent dir t l. unfold plot_heuristics_figure. split; [intros ->; reflexivity|]. intros ->. split; [intros e ->; reflexivity|]. split; [intros t' e -> ->; reflexivity|].
  intros t' l' j -> -> I B. cbn [bind].
  destruct (mapM_throw (fun j => do s <- short_name (h_algorithm (j_heur j)); Ok (j, s)) (fun _ _ => True) (fun _ => True) KeyErrorPy t') as [[r [X _]]|[X _]].
  - intros a _. destruct (short_name_cases (h_algorithm (j_heur a))) as [[s [-> _]]|[-> _]]; [left; exists (a, s); auto|right; auto].
  - change (give_short_names t' = Ok r) in X. rewrite X.
    destruct I as [I|I]; [rewrite (give_short_names_bad t' j I B) in X; discriminate|]. cbn [bind]. rewrite (give_short_names_bad l' j I B). reflexivity.
  - change (give_short_names t' = Throw KeyErrorPy) in X. rewrite X. reflexivity.
Qed.
