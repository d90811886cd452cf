(** * P_Base: lemmas about the outcome monad, lists and basic graph lookups. *)
From Coq Require Import Permutation.
From Verif Require Import Base Graph Spec.

Lemma bind_ok {A B} (m : res A) (f : A -> res B) b :
  bind m f = Ok b -> exists a, m = Ok a /\ f a = Ok b.
Proof. destruct m; simpl; intros H; try discriminate; eauto. Qed.

Lemma chk_ok z : (int_min <= z <= int_max)%Z -> chk z = Ok z.
Proof.
  intros [H1 H2]. unfold chk.
  rewrite (proj2 (Z.leb_le _ _) H1), (proj2 (Z.leb_le _ _) H2). reflexivity.
Qed.

Lemma chk_inv z r : chk z = Ok r -> r = z /\ (int_min <= z <= int_max)%Z.
Proof. unfold chk. destruct (andb _ _) eqn:E; intros H; inversion H; subst. lia. Qed.

Lemma vget_ok {A} (v : list A) i : i < length v -> exists a, vget v i = Ok a /\ nth_error v i = Some a.
Proof.
  intros H. unfold vget. destruct (nth_error v i) eqn:E; eauto.
  apply nth_error_None in E. lia.
Qed.

Lemma vget_inv {A} (v : list A) i a : vget v i = Ok a -> nth_error v i = Some a.
Proof. unfold vget. destruct (nth_error v i); congruence. Qed.

Lemma vget_some {A} (v : list A) i a : nth_error v i = Some a -> vget v i = Ok a.
Proof. unfold vget. intros ->. reflexivity. Qed.

Lemma it_get_some {A} (v : list A) i a : nth_error v i = Some a -> it_get v i = Ok a.
Proof. unfold it_get. intros ->. reflexivity. Qed.

Lemma it_get_inv {A} (v : list A) i a : it_get v i = Ok a -> nth_error v i = Some a.
Proof. unfold it_get. destruct (nth_error v i); congruence. Qed.

Lemma upd_length {A} (v : list A) i a : length (upd v i a) = length v.
Proof. revert i; induction v as [|x t IH]; intros [|i]; simpl; auto. Qed.

Lemma upd_same {A} (v : list A) i a : i < length v -> nth_error (upd v i a) i = Some a.
Proof.
  revert i; induction v as [|x t IH]; intros [|i]; simpl; intros H; try lia; auto.
  apply IH. lia.
Qed.

Lemma upd_other {A} (v : list A) i j a : i <> j -> nth_error (upd v i a) j = nth_error v j.
Proof.
  revert i j; induction v as [|x t IH]; intros [|i] [|j]; simpl; intros H; try lia; auto.
Qed.

Lemma upd_nth {A} (v : list A) i j a : i < length v ->
  nth_error (upd v i a) j = if Nat.eqb i j then Some a else nth_error v j.
Proof.
  intros H. destruct (Nat.eqb_spec i j) as [->|Hne].
  - now apply upd_same.
  - now apply upd_other.
Qed.

Lemma vset_ok {A} (v : list A) i a : i < length v -> vset v i a = Ok (upd v i a).
Proof. intros H. unfold vset. apply Nat.ltb_lt in H. now rewrite H. Qed.

Lemma vset_inv {A} (v w : list A) i a : vset v i a = Ok w -> i < length v /\ w = upd v i a.
Proof.
  unfold vset. destruct (Nat.ltb_spec i (length v)) as [H|H]; intros E; inversion E; auto.
Qed.

Lemma memb_In x l : memb x l = true <-> In x l.
Proof.
  unfold memb. rewrite existsb_exists. split.
  - intros (y & Hy & E). apply Nat.eqb_eq in E. now subst.
  - intros H. exists x. split; auto. apply Nat.eqb_refl.
Qed.

Lemma memb_not_In x l : memb x l = false <-> ~ In x l.
Proof. rewrite <- memb_In. destruct (memb x l); split; congruence. Qed.

(** ** find_pos *)
Lemma find_pos_le x l : find_pos x l <= length l.
Proof. induction l as [|y t IH]; simpl; auto. destruct (Nat.eqb y x); simpl; lia. Qed.

Lemma find_pos_In x l : In x l <-> find_pos x l < length l.
Proof.
  induction l as [|y t IH]; simpl.
  - split; [tauto|lia].
  - destruct (Nat.eqb_spec y x) as [->|Hne]; simpl.
    + split; auto. lia.
    + rewrite <- Nat.succ_lt_mono, <- IH. tauto.
Qed.

Lemma find_pos_split x l : In x l ->
  exists a b, l = a ++ x :: b /\ find_pos x l = length a /\ ~ In x a.
Proof.
  induction l as [|y t IH]; simpl; [tauto|].
  destruct (Nat.eqb_spec y x) as [->|Hne].
  - intros _. exists [], t. auto.
  - intros [H|H]; [congruence|]. destruct (IH H) as (a & b & -> & Hp & Hn).
    exists (y :: a), b. simpl. rewrite Hp. intuition.
Qed.

Lemma find_pos_app_notin x a b : ~ In x a -> find_pos x (a ++ b) = length a + find_pos x b.
Proof.
  induction a as [|y t IH]; simpl; auto. intros H.
  destruct (Nat.eqb_spec y x) as [->|Hne]; [exfalso; auto|]. rewrite IH; auto.
Qed.

(** ** foldM / mapM *)
Lemma foldM_app {A S} (f : S -> A -> res S) l1 l2 s :
  foldM f (l1 ++ l2) s = bind (foldM f l1 s) (fun s' => foldM f l2 s').
Proof.
  revert s; induction l1 as [|a t IH]; intros s; simpl; auto.
  destruct (f s a); simpl; auto.
Qed.

Lemma foldM_inv {A S} (f : S -> A -> res S) (P : list A -> S -> Prop) l s0 :
  P [] s0 ->
  (forall done x rest s, l = done ++ x :: rest -> P done s ->
     exists s', f s x = Ok s' /\ P (done ++ [x]) s') ->
  exists s', foldM f l s0 = Ok s' /\ P l s'.
Proof.
  intros H0 Hstep.
  assert (G : forall rest done s, l = done ++ rest -> P done s ->
            exists s', foldM f rest s = Ok s' /\ P l s').
  { induction rest as [|x rest IH]; intros done s E HP.
    - rewrite app_nil_r in E. subst. simpl. eauto.
    - destruct (Hstep done x rest s E HP) as (s' & Hf & HP').
      simpl. rewrite Hf. simpl. apply IH with (done := done ++ [x]); auto.
      rewrite <- app_assoc. auto. }
  apply (G l [] s0); auto.
Qed.

Lemma mapM_inv {A B} (f : A -> res B) l r :
  mapM f l = Ok r -> Forall2 (fun a b => f a = Ok b) l r.
Proof.
  revert r; induction l as [|a t IH]; simpl; intros r H.
  - inversion H. constructor.
  - apply bind_ok in H as (b & Hb & H). apply bind_ok in H as (bs & Hbs & H).
    inversion H; subst. constructor; auto.
Qed.

Lemma mapM_exists {A B} (f : A -> res B) (P : A -> B -> Prop) l :
  (forall a, In a l -> exists b, f a = Ok b /\ P a b) ->
  exists r, mapM f l = Ok r /\ Forall2 P l r.
Proof.
  induction l as [|a t IH]; simpl; intros H.
  - eauto.
  - destruct (H a (or_introl eq_refl)) as (b & Hb & HP).
    destruct IH as (r & Hr & HF); [intros; apply H; auto|].
    rewrite Hb; simpl. rewrite Hr; simpl. eauto.
Qed.

Lemma Forall2_nth {A B} (P : A -> B -> Prop) l1 l2 i b :
  Forall2 P l1 l2 -> nth_error l2 i = Some b -> exists a, nth_error l1 i = Some a /\ P a b.
Proof.
  intros H. revert i. induction H; intros [|i] E; simpl in *; try discriminate.
  - inversion E; subst. eauto.
  - eauto.
Qed.

Lemma Forall2_length_eq {A B} (P : A -> B -> Prop) l1 l2 : Forall2 P l1 l2 -> length l1 = length l2.
Proof. induction 1; simpl; auto. Qed.

(** ** list facts *)
Lemma nth_error_Some_lt {A} (l : list A) i a : nth_error l i = Some a -> i < length l.
Proof. intros H. apply nth_error_Some. congruence. Qed.

Lemma nth_error_split_at {A} (l : list A) i a : nth_error l i = Some a ->
  l = firstn i l ++ a :: skipn (S i) l.
Proof.
  revert i; induction l as [|x t IH]; intros [|i]; simpl; intros H; try discriminate.
  - inversion H; auto.
  - f_equal. now apply IH.
Qed.

Lemma removelast_snoc {A} (l : list A) x : removelast (l ++ [x]) = l.
Proof. rewrite removelast_app by discriminate. simpl. apply app_nil_r. Qed.

Lemma removelast_cons_snoc {A} (r : A) l x : removelast (r :: l ++ [x]) = r :: l.
Proof. change (r :: l ++ [x]) with ((r :: l) ++ [x]). apply removelast_snoc. Qed.

Lemma NoDup_app_iff {A} (l1 l2 : list A) :
  NoDup (l1 ++ l2) <-> NoDup l1 /\ NoDup l2 /\ (forall x, In x l1 -> ~ In x l2).
Proof.
  induction l1 as [|a t IH]; simpl.
  - split; [intros H; repeat split; auto; constructor|tauto].
  - rewrite !NoDup_cons_iff, IH, in_app_iff. split.
    + intros (H1 & H2 & H3 & H4). repeat split; auto.
      intros x [->|Hx]; auto.
    + intros ((H1 & H2) & H3 & H4). repeat split; auto.
      intros [H|H]; auto. apply (H4 a); auto.
Qed.

Lemma NoDup_length_le (l : list nat) n : NoDup l -> Forall (fun v => v < n) l -> length l <= n.
Proof.
  intros Hnd Hf. rewrite <- (seq_length n 0). apply NoDup_incl_length; auto.
  intros x Hx. apply in_seq. rewrite Forall_forall in Hf. specialize (Hf x Hx). lia.
Qed.

Lemma Forall_firstn {A} (P : A -> Prop) n l : Forall P l -> Forall P (firstn n l).
Proof. rewrite !Forall_forall. intros H x Hx. apply H. rewrite <- (firstn_skipn n l), in_app_iff; auto. Qed.

Lemma Forall_skipn {A} (P : A -> Prop) n l : Forall P l -> Forall P (skipn n l).
Proof. rewrite !Forall_forall. intros H x Hx. apply H. rewrite <- (firstn_skipn n l), in_app_iff; auto. Qed.

(** ** edges *)
Lemma joinsb_spec a b u v : joinsb (a, b) u v = true <-> (a, b) = (u, v) \/ (a, b) = (v, u).
Proof.
  unfold joinsb; simpl.
  rewrite orb_true_iff, !andb_true_iff, !Nat.eqb_eq.
  split; intros [H|H]; [left|right|left|right]; inversion H; subst; auto.
Qed.

Lemma find_edge_Some l k u v e : find_edge l k u v = Some e ->
  k <= e /\ (exists p, nth_error l (e - k) = Some p /\ joinsb p u v = true) /\
  (forall f p, nth_error l f = Some p -> joinsb p u v = true -> e <= f + k).
Proof.
  revert k; induction l as [|p t IH]; simpl; intros k H; [discriminate|].
  destruct (joinsb p u v) eqn:E.
  - inversion H; subst. split; [lia|]. rewrite Nat.sub_diag. split.
    + exists p. auto.
    + intros; lia.
  - destruct (IH (S k) H) as (H1 & (q & Hq & Hj) & H3). split; [lia|]. split.
    + exists q. split; auto. replace (e - k) with (S (e - S k)) by lia. auto.
    + intros [|f] q' Hq' Hj'; simpl in Hq'.
      * congruence.
      * specialize (H3 f q' Hq' Hj'). lia.
Qed.

Lemma find_edge_None l k u v : find_edge l k u v = None ->
  forall f p, nth_error l f = Some p -> joinsb p u v = false.
Proof.
  revert k; induction l as [|p t IH]; simpl; intros k H f q Hq.
  - destruct f; discriminate.
  - destruct (joinsb p u v) eqn:E; [discriminate|].
    destruct f as [|f]; simpl in Hq; [congruence|]. eapply IH; eauto.
Qed.

Lemma joins_joinsb g e u v : joins g e u v <->
  exists p, nth_error (ge g) e = Some p /\ joinsb p u v = true.
Proof.
  unfold joins. split.
  - intros [H|H]; eexists; (split; [exact H|]); apply joinsb_spec; auto.
  - intros ([a b] & H & J). apply joinsb_spec in J. rewrite H.
    destruct J as [J|J]; inversion J; auto.
Qed.

Lemma joins_sym g e u v : joins g e u v -> joins g e v u.
Proof. unfold joins; tauto. Qed.

Lemma is_edge_sym g u v : is_edge g u v -> is_edge g v u.
Proof. intros [e H]. exists e. now apply joins_sym. Qed.

Lemma is_edge_range g u v : graph_ok g -> is_edge g u v -> u < gn g /\ v < gn g.
Proof.
  intros Hg [e [H|H]]; apply nth_error_In in H; apply Hg in H; tauto.
Qed.

(** [boost::edge] finds the first edge joining its arguments, if there is one. *)
Lemma edge_Some g u v e : edge g u v = Ok (Some e) -> step_edge g u v e.
Proof.
  unfold edge. destruct (u <? gn g); [|discriminate]. intros H. inversion H as [H'].
  apply find_edge_Some in H' as (_ & Hp & Hm). rewrite Nat.sub_0_r in Hp. split.
  - now apply joins_joinsb.
  - intros f Hf. apply joins_joinsb in Hf as (p & H1 & H2).
    specialize (Hm f p H1 H2). lia.
Qed.

Lemma edge_None g u v : edge g u v = Ok None -> ~ is_edge g u v.
Proof.
  unfold edge. destruct (u <? gn g); [|discriminate]. intros H. inversion H as [H'].
  intros [e He]. apply joins_joinsb in He as (p & H1 & H2).
  pose proof (find_edge_None _ _ _ _ H' e p H1). congruence.
Qed.

Lemma edge_total g u v : u < gn g -> exists oe, edge g u v = Ok oe.
Proof. intros H. unfold edge. apply Nat.ltb_lt in H. rewrite H. eauto. Qed.

Lemma edge_of_step g u v e : u < gn g -> step_edge g u v e -> edge g u v = Ok (Some e).
Proof.
  intros Hu [Hj Hm]. destruct (edge_total g u v Hu) as [[f|] E]; rewrite E.
  - apply edge_Some in E as [Hj' Hm']. specialize (Hm f Hj'). specialize (Hm' e Hj).
    do 2 f_equal. lia.
  - apply edge_None in E. exfalso. apply E. exists e; auto.
Qed.

Lemma edge_exists g u v : u < gn g -> is_edge g u v -> exists e, edge g u v = Ok (Some e).
Proof.
  intros Hu H. destruct (edge_total g u v Hu) as [[f|] E]; eauto.
  apply edge_None in E. tauto.
Qed.

Lemma edge_not_exists g u v : u < gn g -> ~ is_edge g u v -> edge g u v = Ok None.
Proof.
  intros Hu H. destruct (edge_total g u v Hu) as [[f|] E]; auto.
  apply edge_Some in E. exfalso. apply H. exists f. apply E.
Qed.

Lemma edge_sym_val g u v e : v < gn g -> edge g u v = Ok (Some e) -> edge g v u = Ok (Some e).
Proof.
  intros Hv H. apply edge_Some in H as [H1 H2]. apply edge_of_step; auto. split.
  - now apply joins_sym.
  - intros f Hf. apply H2. now apply joins_sym.
Qed.

Lemma is_edge_dec g u v : {is_edge g u v} + {~ is_edge g u v}.
Proof.
  destruct (find_edge (ge g) 0 u v) as [e|] eqn:E.
  - left. apply find_edge_Some in E as (_ & Hp & _). rewrite Nat.sub_0_r in Hp.
    exists e. now apply joins_joinsb.
  - right. intros [e He]. apply joins_joinsb in He as (p & H1 & H2).
    pose proof (find_edge_None _ _ _ _ E e p H1). congruence.
Qed.

Lemma step_edge_exists g u v : is_edge g u v -> exists e, step_edge g u v e.
Proof.
  intros He. destruct (find_edge (ge g) 0 u v) as [e|] eqn:E.
  - exists e. apply find_edge_Some in E as (_ & Hp & Hm). rewrite Nat.sub_0_r in Hp. split.
    + now apply joins_joinsb.
    + intros f Hf. apply joins_joinsb in Hf as (p & H1 & H2). specialize (Hm f p H1 H2). lia.
  - exfalso. destruct He as [e He]. apply joins_joinsb in He as (p & H1 & H2).
    pose proof (find_edge_None _ _ _ _ E e p H1). congruence.
Qed.

Lemma step_edge_unique g u v e f : step_edge g u v e -> step_edge g u v f -> e = f.
Proof. intros [H1 H2] [H3 H4]. specialize (H2 f H3). specialize (H4 e H1). lia. Qed.

Lemma step_edge_sym g u v e : step_edge g u v e -> step_edge g v u e.
Proof.
  intros [H1 H2]. split; [now apply joins_sym|]. intros f Hf. apply H2. now apply joins_sym.
Qed.

Lemma joins_lt g e u v : joins g e u v -> e < length (ge g).
Proof. intros [H|H]; eapply nth_error_Some_lt; eauto. Qed.

(** ** neighbours *)
Lemma nbrs_In g u v : In v (nbrs g u) <-> is_edge g u v.
Proof.
  unfold nbrs. rewrite in_flat_map. split.
  - intros ([a b] & Hin & Ha). apply In_nth_error in Hin as [e He].
    unfold adj_of in Ha; simpl in Ha. apply in_app_iff in Ha.
    destruct Ha as [Ha|Ha].
    + destruct (Nat.eqb_spec a u) as [->|]; [|inversion Ha].
      destruct Ha as [->|[]]. exists e. now left.
    + destruct (Nat.eqb_spec b u) as [->|]; [|inversion Ha].
      destruct Ha as [->|[]]. exists e. now right.
  - intros [e [H|H]]; apply nth_error_In in H.
    + exists (u, v). split; auto. unfold adj_of; simpl. rewrite Nat.eqb_refl. simpl. auto.
    + exists (v, u). split; auto. unfold adj_of; simpl. rewrite Nat.eqb_refl.
      apply in_app_iff. right. simpl; auto.
Qed.

Lemma adjacent_ok g u : u < gn g -> adjacent g u = Ok (nbrs g u).
Proof. intros H. unfold adjacent. apply Nat.ltb_lt in H. now rewrite H. Qed.

(** ** walks *)
Lemma is_walk_inv2 g u v w : is_walk g (u :: v :: w) -> is_edge g u v /\ is_walk g (v :: w).
Proof. intros H. inversion H; auto. Qed.

Lemma is_walk_tl g u w : is_walk g (u :: w) -> is_walk g w.
Proof. intros H. inversion H; subst; auto. constructor. Qed.

Lemma is_walk_app_inv g a b : is_walk g (a ++ b) -> is_walk g a /\ is_walk g b.
Proof.
  induction a as [|x t IH]; simpl; intros H.
  - split; auto. constructor.
  - destruct t as [|y t]; simpl in *.
    + split; [constructor|]. now apply is_walk_tl in H.
    + apply is_walk_inv2 in H as [He H]. destruct (IH H) as [H1 H4].
      split; auto. constructor; auto.
Qed.

Lemma is_walk_join g a x b : is_walk g (a ++ [x]) -> is_walk g (x :: b) -> is_walk g (a ++ x :: b).
Proof.
  induction a as [|y t IH]; simpl; intros H1 H2; auto.
  destruct t as [|z t]; simpl in *.
  - apply is_walk_inv2 in H1 as [He _]. constructor; auto.
  - apply is_walk_inv2 in H1 as [He H1]. constructor; auto.
Qed.

Lemma is_walk_split g a x b : is_walk g (a ++ x :: b) -> is_walk g (a ++ [x]) /\ is_walk g (x :: b).
Proof.
  intros H. split.
  - change (a ++ x :: b) with (a ++ [x] ++ b) in H. rewrite app_assoc in H.
    now apply is_walk_app_inv in H.
  - now apply is_walk_app_inv in H.
Qed.

Lemma is_walk_rev g w : is_walk g w -> is_walk g (rev w).
Proof.
  induction 1 as [|u|u v w He Hw IH]; simpl; try constructor.
  simpl in IH. rewrite <- app_assoc. simpl.
  apply is_walk_join; auto. constructor; [now apply is_edge_sym | constructor].
Qed.

Lemma is_walk_dec g w : {is_walk g w} + {~ is_walk g w}.
Proof.
  induction w as [|u w IH]; [left; constructor|].
  destruct w as [|v w]; [left; constructor|].
  destruct (is_edge_dec g u v) as [He|He].
  - destruct IH as [H|H]; [left; now constructor|right].
    intros H'; apply is_walk_inv2 in H' as [_ H']; auto.
  - right. intros H'; apply is_walk_inv2 in H' as [H' _]; auto.
Qed.

Lemma walk_cost_walk g c w z : walk_cost g c w z -> is_walk g w.
Proof. induction 1 as [|u|u v w e x z Hs Hx Hw IH]; constructor; auto. exists e. apply Hs. Qed.

Lemma walk_cost_inv2 g c u v w z : walk_cost g c (u :: v :: w) z ->
  exists e x z', step_edge g u v e /\ nth_error c e = Some x /\
                 walk_cost g c (v :: w) z' /\ z = (x + z')%Z.
Proof. intros H. inversion H; subst. repeat eexists; eauto; apply H3. Qed.

Lemma walk_cost_one g c u z : walk_cost g c [u] z -> z = 0%Z.
Proof. intros H. inversion H; auto. Qed.

Lemma walk_cost_fun g c w z1 z2 : walk_cost g c w z1 -> walk_cost g c w z2 -> z1 = z2.
Proof.
  intros H; revert z2. induction H as [|u|u v w e x z Hs Hx Hw IH]; intros z2 H2.
  - inversion H2; auto.
  - now apply walk_cost_one in H2.
  - apply walk_cost_inv2 in H2 as (e' & x' & z' & Hs' & Hx' & Hw' & ->).
    assert (e = e') by (eapply step_edge_unique; eauto). subst.
    assert (x = x') by congruence. subst. f_equal. auto.
Qed.

Lemma walk_cost_exists g c w : length c = length (ge g) -> is_walk g w -> exists z, walk_cost g c w z.
Proof.
  intros Hc. induction 1 as [|u|u v w He Hw [z IH]].
  - eexists; constructor.
  - eexists; constructor.
  - destruct (step_edge_exists g u v He) as [e Hs].
    destruct (nth_error c e) as [x|] eqn:E.
    + eexists. econstructor; eauto.
    + exfalso. apply nth_error_None in E. pose proof (joins_lt _ _ _ _ (proj1 Hs)). lia.
Qed.

Lemma walk_cost_join g c a x b z1 z2 :
  walk_cost g c (a ++ [x]) z1 -> walk_cost g c (x :: b) z2 ->
  walk_cost g c (a ++ x :: b) (z1 + z2).
Proof.
  revert z1; induction a as [|y t IH]; simpl; intros z1 H1 H2.
  - apply walk_cost_one in H1. subst. auto.
  - destruct t as [|y' t]; simpl in *.
    + apply walk_cost_inv2 in H1 as (e & w & z' & Hs & Hx & Hw & ->).
      apply walk_cost_one in Hw. subst. rewrite <- Z.add_assoc. econstructor; eauto.
    + apply walk_cost_inv2 in H1 as (e & w & z' & Hs & Hx & Hw & ->).
      rewrite <- Z.add_assoc. econstructor; eauto.
Qed.

Lemma walk_cost_split g c a x b z : walk_cost g c (a ++ x :: b) z ->
  exists z1 z2, walk_cost g c (a ++ [x]) z1 /\ walk_cost g c (x :: b) z2 /\ z = (z1 + z2)%Z.
Proof.
  revert z; induction a as [|y t IH]; simpl; intros z H.
  - exists 0%Z, z. repeat split; auto. constructor.
  - destruct t as [|y' t]; simpl in *.
    + apply walk_cost_inv2 in H as (e & w & z' & Hs & Hx & Hw & ->).
      exists (w + 0)%Z, z'. repeat split; try lia; auto.
      econstructor; eauto. constructor.
    + apply walk_cost_inv2 in H as (e & w & z' & Hs & Hx & Hw & ->).
      destruct (IH _ Hw) as (z1 & z2 & A & B & ->).
      exists (w + z1)%Z, z2. repeat split; auto; try lia. econstructor; eauto.
Qed.

Lemma walk_cost_rev g c w z : walk_cost g c w z -> walk_cost g c (rev w) z.
Proof.
  induction 1 as [|u|u v w e x z Hs Hx Hw IH]; simpl; try constructor.
  simpl in IH. rewrite <- app_assoc. simpl.
  rewrite Z.add_comm. apply walk_cost_join; auto.
  replace x with (x + 0)%Z by lia. econstructor; eauto.
  - now apply step_edge_sym.
  - constructor.
Qed.

Lemma walk_cost_bounds g c w z lo hi : costs_within g c lo hi -> walk_cost g c w z ->
  (lo * Z.of_nat (length w - 1) <= z <= hi * Z.of_nat (length w - 1))%Z.
Proof.
  intros [_ Hf]. rewrite Forall_forall in Hf.
  induction 1 as [|u|u v w e x z Hs Hx Hw IH]; simpl; try lia.
  specialize (Hf x (nth_error_In _ _ Hx)).
  cbn [length] in IH. rewrite Nat.sub_succ, Nat.sub_0_r in IH. lia.
Qed.

(** ** prizes *)
Lemma prize_sum_cons_inv p v l z : prize_sum p (v :: l) z ->
  exists x z', nth_error p v = Some x /\ prize_sum p l z' /\ z = (x + z')%Z.
Proof. intros H. inversion H; subst. eauto. Qed.

Lemma prize_sum_fun p l z1 z2 : prize_sum p l z1 -> prize_sum p l z2 -> z1 = z2.
Proof.
  intros H; revert z2; induction H as [|v l x z Hx Hl IH]; intros z2 H2.
  - inversion H2; auto.
  - apply prize_sum_cons_inv in H2 as (x' & z' & Hx' & Hl' & ->).
    assert (x = x') by congruence. subst. f_equal; auto.
Qed.

Lemma prize_sum_app p a b z1 z2 : prize_sum p a z1 -> prize_sum p b z2 -> prize_sum p (a ++ b) (z1 + z2).
Proof.
  intros H; revert z2; induction H as [|v l x z Hx Hl IH]; intros z2 H2; simpl; auto.
  rewrite <- Z.add_assoc. econstructor; eauto.
Qed.

Lemma prize_sum_app_inv p a b z : prize_sum p (a ++ b) z ->
  exists z1 z2, prize_sum p a z1 /\ prize_sum p b z2 /\ z = (z1 + z2)%Z.
Proof.
  revert z; induction a as [|x t IH]; simpl; intros z H.
  - exists 0%Z, z. repeat split; auto. constructor.
  - apply prize_sum_cons_inv in H as (x' & z' & Hx' & Hl' & ->).
    destruct (IH _ Hl') as (z1 & z2 & A & B & ->).
    exists (x' + z1)%Z, z2. repeat split; auto; try lia. econstructor; eauto.
Qed.

Lemma prize_sum_perm p a b z : Permutation a b -> prize_sum p a z -> prize_sum p b z.
Proof.
  intros H; revert z; induction H as [|x l l' H IH|x y l|l l' l'' H1 IH1 H2 IH2]; intros z Hz; auto.
  - apply prize_sum_cons_inv in Hz as (x' & z' & Hx' & Hl' & ->). econstructor; eauto.
  - apply prize_sum_cons_inv in Hz as (x' & z' & Hx' & Hl' & ->).
    apply prize_sum_cons_inv in Hl' as (x'' & z'' & Hx'' & Hl'' & ->).
    replace (x' + (x'' + z''))%Z with (x'' + (x' + z''))%Z by lia.
    econstructor; eauto. econstructor; eauto.
Qed.

Lemma prize_sum_exists p l : Forall (fun v => v < length p) l -> exists z, prize_sum p l z.
Proof.
  induction 1 as [|v l H _ [z IH]].
  - eexists; constructor.
  - destruct (nth_error p v) as [x|] eqn:E.
    + eexists; econstructor; eauto.
    + apply nth_error_None in E. lia.
Qed.

Lemma prize_sum_range p l z : prize_sum p l z -> Forall (fun v => v < length p) l.
Proof. induction 1; constructor; auto. eapply nth_error_Some_lt; eauto. Qed.

Lemma prize_sum_bounds p l z lo hi : Forall (fun x => lo <= x <= hi)%Z p -> prize_sum p l z ->
  (lo * Z.of_nat (length l) <= z <= hi * Z.of_nat (length l))%Z.
Proof.
  intros Hf. rewrite Forall_forall in Hf. induction 1 as [|v l x z Hx Hl IH]; cbn [length]; try lia.
  specialize (Hf x (nth_error_In _ _ Hx)). lia.
Qed.

Lemma prize_sum_nonneg p l z : Forall (fun x => 0 <= x)%Z p -> prize_sum p l z -> (0 <= z)%Z.
Proof.
  intros Hf. rewrite Forall_forall in Hf. induction 1 as [|v l x z Hx Hl IH]; try lia.
  specialize (Hf x (nth_error_In _ _ Hx)). lia.
Qed.
