(** * P_Flow: depth-first search, flows and cuts *)
From Coq Require Import Permutation.
From Verif Require Import Base Graph Spec M_Graph M_Solution M_MaxFlow Spec_Flow P_Base P_Component P_ILP.
Open Scope nat_scope.

(** ** depth-first search *)
Definition whites (col : list colour) : nat := length (filter (fun c => colour_eqb c White) col).

(** [col'] differs from [col] only where [col] is White *)
Definition later (col col' : list colour) : Prop :=
  length col' = length col /\
  forall v c, nth_error col v = Some c -> c <> White -> nth_error col' v = Some c.

Lemma later_refl col : later col col.
Proof. split; auto. Qed.

Lemma later_trans a b c : later a b -> later b c -> later a c.
Proof. intros [L1 H1] [L2 H2]. split; [congruence|]. intros v k Hv Hk. eauto. Qed.

Lemma later_whites a b : later a b -> whites b <= whites a.
Proof.
  intros [L H]. unfold whites. revert b L H. induction a as [|x a IH]; intros [|y b] L H; try discriminate L.
  - constructor.
  - cbn in L. assert (IH' := IH b ltac:(lia) ltac:(intros v c Hv Hc; apply (H (S v) c); auto)).
    cbn [filter]. pose proof (H 0 x eq_refl) as H0. cbn in H0.
    destruct x; cbn [colour_eqb length].
    + destruct (colour_eqb y White); cbn [length]; lia.
    + assert (Some y = Some Gray) as E by (apply H0; discriminate). inversion E. cbn. exact IH'.
    + assert (Some y = Some Black) as E by (apply H0; discriminate). inversion E. cbn. exact IH'.
Qed.

Lemma whites_upd col u k : nth_error col u = Some White -> k <> White ->
  whites col = S (whites (upd col u k)).
Proof.
  unfold whites. revert u. induction col as [|x col IH]; intros [|u] H Hk; cbn in H; try discriminate.
  - inversion H; subst. cbn. destruct k; [congruence| |]; reflexivity.
  - cbn [upd filter].
    destruct (colour_eqb x White); cbn [length]; rewrite (IH u H Hk); reflexivity.
Qed.

Lemma whites_repeat n : whites (repeat White n) = n.
Proof. unfold whites. induction n; cbn; auto. Qed.

Lemma nth_some_ex {A} (l : list A) i : i < length l -> exists a, nth_error l i = Some a.
Proof. intros H. destruct (nth_error l i) eqn:E; eauto. apply nth_error_None in E. lia. Qed.

Lemma nth_some_lt {A} (l : list A) i a : nth_error l i = Some a -> i < length l.
Proof. intros H. apply nth_error_Some. congruence. Qed.

Lemma nth_error_seq0 n i : i < n -> nth_error (seq 0 n) i = Some i.
Proof.
  intros H. rewrite (nth_error_nth' _ 0) by (rewrite seq_length; auto). now rewrite seq_nth.
Qed.

Lemma out_arcs_In d u i a : In (i, a) (out_arcs d u) <->
  nth_error (n_arcs d) i = Some a /\ a_src a = u.
Proof.
  unfold out_arcs. rewrite filter_In. cbn [snd]. rewrite Nat.eqb_eq.
  split; intros [H1 H2]; split; auto.
  - apply In_nth_error in H1 as [j Hj]. rewrite nth_error_combine in Hj.
    destruct (nth_error (seq 0 (length (n_arcs d))) j) as [j'|] eqn:Es; [|discriminate].
    destruct (nth_error (n_arcs d) j) as [b|] eqn:Ea; [|discriminate].
    rewrite nth_error_seq0 in Es by (eapply nth_some_lt; eauto). congruence.
  - apply nth_error_In with i. rewrite nth_error_combine, H1.
    now rewrite nth_error_seq0 by (eapply nth_some_lt; eauto).
Qed.

Section Dfs.
Context (d : net) (w : list Z) (Hd : net_ok d) (Hw : length w = length (n_arcs d)).

Lemma arc_ends i a : nth_error (n_arcs d) i = Some a -> a_src a < n_size d /\ a_dst a < n_size d.
Proof. intros H. unfold net_ok in Hd. rewrite Forall_forall in Hd. apply Hd. eapply nth_error_In; eauto. Qed.

Lemma dreach_trans u v x : dreach d w u v -> dreach d w v x -> dreach d w u x.
Proof. intros H1 H2. induction H2 as [|y z H IH Ha]; auto. eapply dr_step; eauto. Qed.

(** what a search from [u] adds *)
Definition grown (u : nat) (col col' : list colour) : Prop :=
  later col col' /\
  forall v, nth_error col v = Some White -> nth_error col' v <> Some White ->
    nth_error col' v = Some Black /\ dreach d w u v /\
    forall x, pos_arc d w v x -> nth_error col' x <> Some White.

Lemma dfs_ok fuel : forall u col,
  length col = n_size d -> nth_error col u = Some White -> whites col <= fuel ->
  exists col', dfs_visit fuel d w u col = Ok col' /\ grown u col col' /\
    nth_error col' u = Some Black.
Proof.
  induction fuel as [|fuel IH]; intros u col Hl Hu Hf.
  - rewrite (whites_upd col u Black Hu) in Hf by discriminate. lia.
  - cbn [dfs_visit]. pose proof (nth_some_lt _ _ _ Hu) as Hlt.
    rewrite vset_ok by auto. cbn [bind].
    set (col0 := upd col u Gray).
    assert (L0 : length col0 = n_size d) by (unfold col0; rewrite upd_length; auto).
    assert (W0 : whites col0 <= fuel).
    { rewrite (whites_upd col u Gray Hu) in Hf by discriminate. unfold col0. lia. }
    assert (U0 : nth_error col0 u = Some Gray) by (apply upd_same; auto).
    match goal with |- context [foldM ?f (out_arcs d u) col0] =>
      destruct (foldM_inv f (fun done c => later col0 c /\
        (forall v, nth_error col0 v = Some White -> nth_error c v <> Some White ->
           nth_error c v = Some Black /\ dreach d w u v /\
           forall x, pos_arc d w v x -> nth_error c x <> Some White) /\
        (forall i a x, In (i, a) done -> nth_error w i = Some x -> (0 < x)%Z ->
           nth_error c (a_dst a) <> Some White)) (out_arcs d u) col0) as (col1 & E1 & HL & HG & HA)
    end.
    { split; [apply later_refl|]. split; [|intros ? ? ? []]. intros v H1 H2. congruence. }
    { intros done [i a] rest c Esp (HL & HG & HA).
      assert (Hin : In (i, a) (out_arcs d u)) by (rewrite Esp; apply in_app_iff; right; now left).
      apply out_arcs_In in Hin as [Hi Hs]. cbn [fst snd].
      destruct (nth_some_ex w i) as [x Hx]; [rewrite Hw; eapply nth_some_lt; eauto|].
      unfold positive_weight. rewrite (vget_some _ _ _ Hx). cbn [bind].
      assert (Lc : length c = n_size d) by (destruct HL; congruence).
      destruct (Z.ltb_spec 0 x) as [Hpos|Hneg].
      - destruct (arc_ends i a Hi) as [_ Hdst].
        destruct (nth_some_ex c (a_dst a)) as [k Hk]; [lia|].
        rewrite (vget_some _ _ _ Hk). cbn [bind].
        destruct k.
        2,3: exists c; split; [reflexivity|]; split; [exact HL|]; split; [exact HG|];
          intros i' a' x' H H1 H2; apply in_app_iff in H as [H|[H|[]]]; [eauto|];
          inversion H; subst; congruence.
        assert (Wc : whites c <= fuel) by (pose proof (later_whites _ _ HL); lia).
        destruct (IH (a_dst a) c Lc Hk Wc) as (c' & Ec & [HL' HG'] & HB).
        exists c'. split; [exact Ec|]. split; [eapply later_trans; eauto|]. split.
        + intros v H1 H2.
          destruct (nth_some_ex c v) as [k Hkv].
          { rewrite Lc, <- L0. eapply nth_some_lt; eauto. }
          destruct k.
          * destruct (HG' v Hkv H2) as (B1 & B2 & B3). split; auto. split; auto.
            eapply dreach_trans; [|exact B2]. eapply dr_step; [constructor|].
            exists i, a, x. auto.
          * destruct (HG v H1) as (B1 & B2 & B3); [congruence|]. congruence.
          * destruct (HG v H1) as (B1 & B2 & B3); [congruence|].
            split; [apply (proj2 HL' v Black Hkv); discriminate|]. split; auto.
            intros y Hy Hyw. specialize (B3 y Hy).
            destruct (nth_error c y) as [ky|] eqn:Ey.
            -- destruct (proj2 HL' y ky Ey); congruence.
            -- apply nth_error_None in Ey. apply nth_some_lt in Hyw. destruct HL'. lia.
        + intros i' a' x' H H1 H2. apply in_app_iff in H as [H|[H|[]]].
          * specialize (HA i' a' x' H H1 H2). intros Hyw.
            destruct (nth_error c (a_dst a')) as [ky|] eqn:Ey.
            -- destruct (proj2 HL' _ ky Ey); congruence.
            -- apply nth_error_None in Ey. apply nth_some_lt in Hyw. destruct HL'. lia.
          * inversion H; subst. congruence.
      - exists c. split; [reflexivity|]. split; [exact HL|]. split; [exact HG|].
        intros i' a' x' H H1 H2. apply in_app_iff in H as [H|[H|[]]]; [eauto|].
        inversion H; subst. rewrite Hx in H1. inversion H1; subst. lia. }
    rewrite E1. cbn [bind].
    assert (L1 : length col1 = n_size d) by (destruct HL; congruence).
    rewrite vset_ok by lia.
    assert (NW : forall y, nth_error col1 y <> Some White -> nth_error (upd col1 u Black) y <> Some White).
    { intros y Hy. rewrite upd_nth by lia. destruct (Nat.eqb_spec u y); [discriminate|auto]. }
    exists (upd col1 u Black). split; [reflexivity|]. split; [|apply upd_same; lia].
    split.
    + split; [rewrite upd_length; congruence|]. intros v c Hv Hc.
      assert (u <> v) by (intros <-; congruence).
      rewrite upd_other by auto. apply (proj2 HL v c); auto. unfold col0. rewrite upd_other; auto.
    + intros v H1 H2. destruct (Nat.eq_dec u v) as [<-|Huv].
      * split; [apply upd_same; lia|]. split; [constructor|].
        intros x (i & a & y & Hi & Hs & Ht & Hy & Hp). apply NW. rewrite <- Ht.
        apply (HA i a y); auto. apply out_arcs_In. auto.
      * rewrite upd_other in * by auto.
        destruct (HG v) as (B1 & B2 & B3); auto.
        { unfold col0. rewrite upd_other; auto. }
Qed.

Lemma pos_arc_lt u v : pos_arc d w u v -> u < n_size d /\ v < n_size d.
Proof. intros (i & a & x & Hi & <- & <- & _). now apply arc_ends with i. Qed.

Lemma dreach_lt s v : s < n_size d -> dreach d w s v -> v < n_size d.
Proof. intros Hs H. induction H as [|u v H IH Ha]; auto. apply (pos_arc_lt u v Ha). Qed.

Lemma search_ok s : s < n_size d -> exists col, search_colours d s w = Ok (col, Black) /\
  length col = n_size d /\
  forall v, v < n_size d -> (nth_error col v = Some Black <-> dreach d w s v) /\
    (nth_error col v = Some White <-> ~ dreach d w s v).
Proof.
  intros Hs. unfold search_colours.
  assert (WH : forall v, v < n_size d -> nth_error (repeat White (n_size d)) v = Some White).
  { intros v Hv. now apply nth_error_repeat. }
  destruct (dfs_ok (n_size d) s (repeat White (n_size d))) as (col & E & [HL HG] & HB).
  { apply repeat_length. } { auto. } { now rewrite whites_repeat. }
  exists col. rewrite E. cbn [bind]. rewrite (vget_some _ _ _ HB). cbn [bind].
  split; [reflexivity|].
  assert (L : length col = n_size d) by (destruct HL as [L _]; rewrite repeat_length in L; auto).
  split; [exact L|].
  assert (R : forall v, dreach d w s v -> nth_error col v = Some Black).
  { induction 1 as [|u v H IH Ha]; [exact HB|].
    destruct (pos_arc_lt u v Ha) as [Hu Hv].
    destruct (HG u (WH u Hu)) as (_ & _ & B3); [congruence|].
    destruct (HG v (WH v Hv) (B3 v Ha)) as (B & _). exact B. }
  assert (D : forall v, v < n_size d -> nth_error col v = Some White \/
                (nth_error col v = Some Black /\ dreach d w s v)).
  { intros v Hv. destruct (nth_some_ex col v) as [k Hk]; [lia|].
    destruct k; [now left| |].
    - destruct (HG v (WH v Hv)); congruence.
    - right. destruct (HG v (WH v Hv)) as (B1 & B2 & _); [congruence|]. auto. }
  intros v Hv. destruct (D v Hv) as [W|[B Hr]].
  - split; split; intros H; try congruence.
    + apply R in H. congruence.
    + intros H'. apply R in H'. congruence.
  - split; split; intros H; auto; try congruence.
Qed.

Lemma select_ok (col : list colour) (P : colour -> bool) n : n <= length col ->
  foldM (fun acc v => do c <- vget col v; Ok (if P c then acc ++ [v] else acc)) (seq 0 n) [] =
  Ok (filter (fun v => match nth_error col v with Some c => P c | None => false end) (seq 0 n)).
Proof.
  intros Hn.
  match goal with |- foldM ?f _ _ = _ =>
    destruct (foldM_inv f (fun done acc => acc =
       filter (fun v => match nth_error col v with Some c => P c | None => false end) done) (seq 0 n) [])
       as (r & E & ->) end; auto.
  intros done x rest acc Esp ->.
  assert (Hx : In x (seq 0 n)) by (rewrite Esp; apply in_app_iff; right; now left).
  apply in_seq in Hx. destruct (nth_some_ex col x) as [c Hc]; [lia|].
  rewrite (vget_some _ _ _ Hc). cbn [bind]. eexists. split; [reflexivity|].
  rewrite filter_app. cbn [filter]. rewrite Hc. destruct (P c); auto. now rewrite app_nil_r.
Qed.

Lemma reachable_ok s : s < n_size d -> exists R U,
  get_reachable d s w = Ok R /\ get_unreachable d s w = Ok U /\ NoDup R /\ NoDup U /\
  (forall v, In v R <-> dreach d w s v) /\
  (forall v, In v U <-> v < n_size d /\ ~ dreach d w s v).
Proof.
  intros Hs. destruct (search_ok s Hs) as (col & E & L & H).
  unfold get_reachable, get_unreachable. rewrite E. cbn [bind].
  rewrite (select_ok col (fun c => colour_eqb c Black)) by lia.
  rewrite (select_ok col (fun c => negb (colour_eqb c Black))) by lia.
  eexists _, _. split; [reflexivity|]. split; [reflexivity|].
  split; [apply NoDup_filter, seq_NoDup|]. split; [apply NoDup_filter, seq_NoDup|].
  assert (D : forall v, v < n_size d -> (nth_error col v = Some Black /\ dreach d w s v) \/
                (nth_error col v = Some White /\ ~ dreach d w s v)).
  { intros v Hv. destruct (H v Hv) as [[B1 B2] [W1 W2]].
    destruct (nth_some_ex col v) as [k Hk]; [lia|]. destruct k; auto.
    exfalso. assert (Hn : ~ dreach d w s v) by (intros Hr; specialize (B2 Hr); congruence).
    specialize (W2 Hn). congruence. }
  split; intros v; rewrite filter_In, in_seq.
  - split.
    + intros [Hv Hc]. destruct (D v ltac:(lia)) as [[B Hr]|[W Hr]]; auto. rewrite W in Hc. discriminate.
    + intros Hr. pose proof (dreach_lt s v Hs Hr) as Hv. split; [lia|].
      destruct (D v Hv) as [[B _]|[W Hr']]; [now rewrite B|contradiction].
  - split.
    + intros [Hv Hc]. split; [lia|]. destruct (D v ltac:(lia)) as [[B Hr]|[W Hr]]; auto.
      rewrite B in Hc. discriminate.
    + intros [Hv Hr]. split; [lia|]. destruct (D v Hv) as [[B Hr']|[W _]]; [contradiction|now rewrite W].
Qed.

End Dfs.

(** ** sums over arcs *)
Lemma map_NoDup_in {A B} (f : A -> B) l : NoDup l ->
  (forall x y, In x l -> In y l -> f x = f y -> x = y) -> NoDup (map f l).
Proof.
  induction 1 as [|a l Ha Hn IH]; intros H; cbn [map]; constructor.
  - intros Hin. apply in_map_iff in Hin as (b & E & Hb).
    apply Ha. rewrite <- (H b a); auto; [now right|now left].
  - apply IH. intros x y Hx Hy. apply H; now right.
Qed.

Definition term (P : arc -> bool) (f : nat -> arc -> Z) (l : list arc) (i : nat) : Z :=
  match nth_error l i with Some a => if P a then f i a else 0%Z | None => 0%Z end.

Lemma zsum_map f h l : zsum f (map h l) = zsum (fun x => f (h x)) l.
Proof. induction l as [|a l IH]; cbn [map zsum]; lia. Qed.

Lemma zsum_plus f h l : zsum (fun x => f x + h x)%Z l = (zsum f l + zsum h l)%Z.
Proof. induction l as [|a l IH]; cbn [zsum]; lia. Qed.

Lemma zsum_opp f l : zsum (fun x => - f x)%Z l = (- zsum f l)%Z.
Proof. induction l as [|a l IH]; cbn [zsum]; lia. Qed.

Lemma zsum_le f h l : (forall a, In a l -> f a <= h a)%Z -> (zsum f l <= zsum h l)%Z.
Proof.
  induction l as [|a l IH]; intros H; cbn [zsum]; [lia|].
  pose proof (H a (or_introl eq_refl)). assert (zsum f l <= zsum h l)%Z by (apply IH; intros; apply H; now right). lia.
Qed.

Lemma zsum_zero f l : (forall a, In a l -> f a = 0%Z) -> zsum f l = 0%Z.
Proof.
  intros H. rewrite (zsum_ext f (fun _ => 0%Z)) by auto. rewrite zsum_const. lia.
Qed.

Lemma arc_sum_terms P f l : arc_sum P f 0 l = zsum (term P f l) (seq 0 (length l)).
Proof.
  assert (G : forall l k, arc_sum P f k l = zsum (fun j => term P (fun j a => f (k + j) a) l j) (seq 0 (length l))).
  { clear l. induction l as [|a l IH]; intros k; cbn [arc_sum length seq]; [reflexivity|].
    cbn [zsum]. rewrite <- seq_shift, zsum_map, IH. f_equal.
    - unfold term. cbn. now rewrite Nat.add_0_r.
    - apply zsum_ext. intros j _. unfold term. cbn [nth_error].
      destruct (nth_error l j); auto. now rewrite Nat.add_succ_r. }
  rewrite G. reflexivity.
Qed.

Lemma arc_sum_ext (P Q : arc -> bool) (f h : nat -> arc -> Z) l : (forall i a, nth_error l i = Some a ->
    (if P a then f i a else 0%Z) = (if Q a then h i a else 0%Z)) ->
  arc_sum P f 0 l = arc_sum Q h 0 l.
Proof.
  intros H. rewrite !arc_sum_terms. apply zsum_ext. intros i _. unfold term.
  destruct (nth_error l i) eqn:E; auto.
Qed.

Lemma arc_sum_le (P Q : arc -> bool) (f h : nat -> arc -> Z) l : (forall i a, nth_error l i = Some a ->
    (if P a then f i a else 0%Z) <= (if Q a then h i a else 0%Z))%Z ->
  (arc_sum P f 0 l <= arc_sum Q h 0 l)%Z.
Proof.
  intros H. rewrite !arc_sum_terms. apply zsum_le. intros i _. unfold term.
  destruct (nth_error l i) eqn:E; [eauto|lia].
Qed.

Lemma arc_sum_split P Q f l :
  arc_sum P f 0 l = (arc_sum (fun a => andb (P a) (Q a)) f 0 l + arc_sum (fun a => andb (P a) (negb (Q a))) f 0 l)%Z.
Proof.
  rewrite !arc_sum_terms, <- zsum_plus. apply zsum_ext. intros i _. unfold term.
  destruct (nth_error l i) as [a|]; auto. destruct (P a), (Q a); cbn [andb negb]; lia.
Qed.

Lemma arc_sum_opp P f l : arc_sum P (fun i a => - f i a)%Z 0 l = (- arc_sum P f 0 l)%Z.
Proof.
  rewrite !arc_sum_terms, <- zsum_opp. apply zsum_ext. intros i _. unfold term.
  destruct (nth_error l i) as [a|]; auto. destruct (P a); lia.
Qed.

Lemma arc_sum_plus P f h l : arc_sum P (fun i a => f i a + h i a)%Z 0 l = (arc_sum P f 0 l + arc_sum P h 0 l)%Z.
Proof.
  rewrite !arc_sum_terms, <- zsum_plus. apply zsum_ext. intros i _. unfold term.
  destruct (nth_error l i) as [a|]; auto. destruct (P a); lia.
Qed.

(** summing over the source vertex *)
Lemma arc_sum_sources f l X : NoDup X ->
  zsum (fun v => arc_sum (fun a => Nat.eqb (a_src a) v) f 0 l) X =
  arc_sum (fun a => memb (a_src a) X) f 0 l.
Proof.
  intros HX. induction HX as [|v X Hv HX IH].
  - cbn [zsum]. symmetry. rewrite arc_sum_terms. apply zsum_zero. intros i _. unfold term.
    destruct (nth_error l i); auto.
  - cbn [zsum]. rewrite IH, !arc_sum_terms, <- zsum_plus. apply zsum_ext. intros i _. unfold term.
    destruct (nth_error l i) as [a|]; auto. cbn [memb existsb]. fold (memb (a_src a) X).
    destruct (Nat.eqb_spec (a_src a) v) as [->|Hne]; cbn [orb]; [|lia].
    apply memb_not_In in Hv. rewrite Hv. lia.
Qed.

Section Flow.
Context (d : net) (Hd : net_ok d) (Hp : paired d).
Notation arcs := (n_arcs d).

Definition revi (i : nat) : nat := match nth_error arcs i with Some a => a_rev a | None => i end.

Lemma revi_lt i : i < length arcs -> revi i < length arcs.
Proof.
  intros H. destruct (nth_some_ex _ _ H) as [a Ha]. unfold revi. rewrite Ha.
  destruct (Hp i a Ha) as (b & Hb & _). eapply nth_some_lt; eauto.
Qed.

Lemma revi_revi i : i < length arcs -> revi (revi i) = i.
Proof.
  intros H. destruct (nth_some_ex _ _ H) as [a Ha]. unfold revi at 2. rewrite Ha.
  destruct (Hp i a Ha) as (b & Hb & E & _). unfold revi. now rewrite Hb.
Qed.

Lemma revi_perm : Permutation (map revi (seq 0 (length arcs))) (seq 0 (length arcs)).
Proof.
  apply NoDup_Permutation_bis.
  - apply map_NoDup_in; [apply seq_NoDup|].
    intros i j Hi Hj E. apply in_seq in Hi, Hj. rewrite <- (revi_revi i), <- (revi_revi j), E by lia. reflexivity.
  - now rewrite map_length.
  - intros x Hx. apply in_map_iff in Hx as (i & <- & Hi). apply in_seq in Hi.
    apply in_seq. pose proof (revi_lt i). lia.
Qed.

(** the sum over the opposite arcs *)
Lemma arc_sum_rev (C : nat -> nat -> bool) f h :
  (forall i a b, nth_error arcs i = Some a -> nth_error arcs (a_rev a) = Some b -> f (a_rev a) b = h i a) ->
  arc_sum (fun a => C (a_src a) (a_dst a)) f 0 arcs = arc_sum (fun a => C (a_dst a) (a_src a)) h 0 arcs.
Proof.
  intros H. rewrite !arc_sum_terms. rewrite <- (zsum_perm _ _ _ revi_perm), zsum_map.
  apply zsum_ext. intros i Hi. apply in_seq in Hi.
  destruct (nth_some_ex arcs i) as [a Ha]; [lia|].
  destruct (Hp i a Ha) as (b & Hb & _ & Es & Et & _).
  unfold term, revi. rewrite Ha, Hb, Es, Et.
  destruct (C (a_dst a) (a_src a)); auto.
Qed.

Section One.
Context (s t : nat) (z : Z) (r : list Z) (Hf : flow_of d s t z r).

Lemma residual_nonneg i : (0 <= nth i r 0)%Z.
Proof.
  destruct Hf as (_ & Hnn & _). destruct (Nat.lt_ge_cases i (length r)).
  - rewrite Forall_forall in Hnn. apply Hnn. now apply nth_In.
  - rewrite nth_overflow; auto; lia.
Qed.

Lemma flow_across U : NoDup U -> In t U -> ~ In s U ->
  z = arc_sum (fun a => andb (negb (memb (a_src a) U)) (memb (a_dst a) U)) (on_arc r) 0 arcs.
Proof.
  intros HU Ht Hs. destruct Hf as (_ & _ & Hanti & Hcons & Hval).
  assert (E1 : zsum (outflow d r) U = (- z)%Z).
  { destruct (in_split t U Ht) as (l1 & l2 & ->).
    rewrite zsum_app. cbn [zsum]. apply NoDup_remove_2 in HU as Hnt.
    rewrite Hval, !zsum_zero; [lia| |].
    - intros v Hv. apply Hcons; intros ->; [apply Hs; apply in_app_iff; right; now right|apply Hnt; apply in_app_iff; auto].
    - intros v Hv. apply Hcons; intros ->; [apply Hs; apply in_app_iff; auto|apply Hnt; apply in_app_iff; auto]. }
  unfold outflow in E1. rewrite (arc_sum_sources (on_arc r) arcs U HU) in E1.
  rewrite (arc_sum_split _ (fun a => memb (a_dst a) U)) in E1.
  assert (E2 : arc_sum (fun a => andb (memb (a_src a) U) (memb (a_dst a) U)) (on_arc r) 0 arcs = 0%Z).
  { pose proof (arc_sum_rev (fun x y => andb (memb x U) (memb y U)) (on_arc r) (fun i a => - on_arc r i a)%Z Hanti) as H.
    cbv beta in H. rewrite arc_sum_opp in H.
    rewrite (arc_sum_ext (fun a => andb (memb (a_dst a) U) (memb (a_src a) U))
               (fun a => andb (memb (a_src a) U) (memb (a_dst a) U)) (on_arc r) (on_arc r)) in H.
    - lia.
    - intros i a _. now rewrite andb_comm. }
  pose proof (arc_sum_rev (fun x y => andb (memb x U) (negb (memb y U))) (on_arc r) (fun i a => - on_arc r i a)%Z Hanti) as H.
  cbv beta in H. rewrite arc_sum_opp in H.
  rewrite (arc_sum_ext (fun a => andb (memb (a_dst a) U) (negb (memb (a_src a) U)))
             (fun a => andb (negb (memb (a_src a) U)) (memb (a_dst a) U)) (on_arc r) (on_arc r)) in H.
  - lia.
  - intros i a _. now rewrite andb_comm.
Qed.

(** no flow is larger than a cut *)
Lemma weak_duality U : NoDup U -> In t U -> ~ In s U ->
  (z <= arc_sum (fun a => andb (negb (memb (a_src a) U)) (memb (a_dst a) U)) (fun _ a => a_cap a) 0 arcs)%Z.
Proof.
  intros HU Ht Hs. rewrite (flow_across U HU Ht Hs) at 1. apply arc_sum_le. intros i a _.
  destruct (andb _ _); [|lia]. unfold on_arc. pose proof (residual_nonneg i). lia.
Qed.

(** a flow that leaves no residual arc from [R] to the sink fills the cut *)
Lemma saturated U : NoDup U -> In t U -> ~ In s U ->
  (forall u v, pos_arc d r u v -> ~ In u U -> In v U -> False) ->
  z = arc_sum (fun a => andb (negb (memb (a_src a) U)) (memb (a_dst a) U)) (fun _ a => a_cap a) 0 arcs.
Proof.
  intros HU Ht Hs Hno. rewrite (flow_across U HU Ht Hs) at 1. apply arc_sum_ext. intros i a Hi.
  destruct (memb (a_src a) U) eqn:E1; cbn [negb andb]; auto.
  destruct (memb (a_dst a) U) eqn:E2; cbn [andb]; auto.
  apply memb_not_In in E1. apply memb_In in E2. unfold on_arc.
  pose proof (residual_nonneg i) as Hn.
  destruct (Z.eq_dec (nth i r 0%Z) 0) as [->|Hz]; [lia|].
  exfalso. apply (Hno (a_src a) (a_dst a)); auto. exists i, a, (nth i r 0%Z).
  split; auto. split; auto. split; auto. split; [|lia].
  apply nth_error_nth'. destruct Hf as (L & _). rewrite L. eapply nth_some_lt; eauto.
Qed.

(** *** augmenting paths *)
Inductive apath : nat -> list nat -> Prop :=
| ap_nil : apath t []
| ap_cons : forall i a l x, nth_error arcs i = Some a -> nth_error r i = Some x -> (0 < x)%Z ->
    apath (a_dst a) l -> apath (a_src a) (i :: l).

Definition srci (i : nat) : nat := match nth_error arcs i with Some a => a_src a | None => 0 end.
Definition dsti (i : nat) : nat := match nth_error arcs i with Some a => a_dst a | None => 0 end.

Lemma apath_suffix u l1 i l2 : apath u (l1 ++ i :: l2) -> apath (srci i) (i :: l2).
Proof.
  revert u. induction l1 as [|j l1 IH]; intros u H; inversion H; subst.
  - cbn [app] in H. unfold srci. rewrite H2. exact H.
  - eapply IH; eauto.
Qed.

Lemma simple_path u : dreach d r u t -> exists l, apath u l /\ NoDup (map srci l).
Proof.
  assert (G : forall v, dreach d r u v -> (exists l, apath v l /\ NoDup (map srci l)) ->
              exists l, apath u l /\ NoDup (map srci l)).
  { induction 1 as [|x v H IH Ha]; auto. intros (l & Hl & Hn). apply IH.
    destruct Ha as (i & a & y & Hi & <- & <- & Hy & Hpos).
    destruct (in_dec Nat.eq_dec (a_src a) (map srci l)) as [Hin|Hin].
    - apply in_map_iff in Hin as (j & Ej & Hj). apply in_split in Hj as (l1 & l2 & ->).
      exists (j :: l2). rewrite <- Ej. split; [eapply apath_suffix; eauto|].
      rewrite map_app in Hn. now apply NoDup_app_iff in Hn as (_ & Hn & _).
    - exists (i :: l). split; [econstructor; eauto|]. cbn [map].
      assert (srci i = a_src a) as -> by (unfold srci; now rewrite Hi). now constructor. }
  intros H. apply (G t H). exists []. split; [constructor|constructor].
Qed.

(** flow change of one unit along [p] *)
Definition bump (p : list nat) (i : nat) : Z :=
  ((if memb i p then 1 else 0) - (if memb (revi i) p then 1 else 0))%Z.

Lemma apath_valid u p : apath u p -> forall i, In i p -> i < length arcs /\ exists x, nth_error r i = Some x /\ (0 < x)%Z.
Proof.
  induction 1 as [|i a l x Hi Hx Hpos H IH]; intros j Hj; [destruct Hj|].
  destruct Hj as [<-|Hj]; eauto. split; eauto. eapply nth_some_lt; eauto.
Qed.

Definition ind (b : bool) : Z := if b then 1%Z else 0%Z.

Lemma apath_count u p v : apath u p ->
  (zsum (fun i => ind (Nat.eqb (srci i) v)) p - zsum (fun i => ind (Nat.eqb (dsti i) v)) p
   = ind (Nat.eqb u v) - ind (Nat.eqb t v))%Z.
Proof.
  induction 1 as [|i a l x Hi Hx Hpos H IH]; cbn [zsum]; [lia|].
  assert (srci i = a_src a) as -> by (unfold srci; now rewrite Hi).
  assert (dsti i = a_dst a) as -> by (unfold dsti; now rewrite Hi). lia.
Qed.

(** a sum over a duplicate-free list of positions as a sum over all positions *)
Lemma zsum_indicator f p n : NoDup p -> (forall i, In i p -> i < n) ->
  zsum (fun i => if memb i p then f i else 0%Z) (seq 0 n) = zsum f p.
Proof.
  intros Hn Hlt.
  assert (PM : Permutation (filter (fun i => memb i p) (seq 0 n)) p).
  { apply NoDup_Permutation; auto; [apply NoDup_filter, seq_NoDup|].
    intros i. rewrite filter_In, in_seq, memb_In. split; [tauto|]. intros H. split; auto. specialize (Hlt i H). lia. }
  rewrite <- (zsum_perm f _ _ PM). clear. induction (seq 0 n) as [|i l IH]; [reflexivity|].
  cbn [zsum filter]. destruct (memb i p); cbn [zsum]; lia.
Qed.

Lemma bump_outflow u p v : apath u p -> NoDup p ->
  arc_sum (fun a => Nat.eqb (a_src a) v) (fun i _ => bump p i) 0 arcs = (ind (Nat.eqb u v) - ind (Nat.eqb t v))%Z.
Proof.
  intros Hap Hn. rewrite <- (apath_count u p v Hap).
  assert (Hlt : forall i, In i p -> i < length arcs) by (intros i Hi; apply (apath_valid u p Hap i Hi)).
  rewrite <- (zsum_indicator (fun i => ind (Nat.eqb (srci i) v)) p (length arcs) Hn Hlt).
  rewrite <- (zsum_indicator (fun i => ind (Nat.eqb (dsti i) v)) p (length arcs) Hn Hlt).
  rewrite <- (zsum_perm (fun i => if memb i p then ind (Nat.eqb (dsti i) v) else 0%Z) _ _ revi_perm), zsum_map.
  rewrite arc_sum_terms.
  unfold Z.sub. rewrite <- zsum_opp, <- zsum_plus. apply zsum_ext. intros i Hi. apply in_seq in Hi.
  destruct (nth_some_ex arcs i) as [a Ha]; [lia|].
  destruct (Hp i a Ha) as (b & Hb & Er & Es & Et & _).
  unfold term, bump, srci, dsti, revi. rewrite Ha, Hb, Et. unfold ind.
  destruct (Nat.eqb (a_src a) v), (memb i p), (memb (a_rev a) p); reflexivity.
Qed.

Definition pushed (p : list nat) : list Z := map (fun i => (nth i r 0 - bump p i)%Z) (seq 0 (length r)).

Lemma pushed_nth p i : i < length r -> nth i (pushed p) 0%Z = (nth i r 0 - bump p i)%Z.
Proof.
  intros H. unfold pushed.
  rewrite (nth_indep _ 0%Z ((fun i => (nth i r 0 - bump p i)%Z) 0)) by (rewrite map_length, seq_length; auto).
  rewrite (map_nth (fun i => (nth i r 0 - bump p i)%Z)). now rewrite seq_nth.
Qed.

Lemma augment : s <> t -> dreach d r s t -> exists r', flow_of d s t (z + 1) r'.
Proof.
  intros Hst Hr. destruct (simple_path s Hr) as (p & Hap & Hnm).
  assert (Hn : NoDup p) by (now apply NoDup_map_inv in Hnm).
  exists (pushed p). destruct Hf as (L & Hnn & Hanti & Hcons & Hval).
  assert (Lp : length (pushed p) = length r) by (unfold pushed; now rewrite map_length, seq_length).
  assert (ON : forall i a, nth_error arcs i = Some a -> on_arc (pushed p) i a = (on_arc r i a + bump p i)%Z).
  { intros i a Hi. unfold on_arc. rewrite pushed_nth; [lia|]. rewrite L. eapply nth_some_lt; eauto. }
  assert (OUT : forall v, outflow d (pushed p) v = (outflow d r v + (ind (Nat.eqb s v) - ind (Nat.eqb t v)))%Z).
  { intros v. unfold outflow. rewrite <- (bump_outflow s p v Hap Hn), <- arc_sum_plus.
    apply arc_sum_ext. intros i a Hi. now rewrite ON. }
  split; [congruence|]. split; [|split; [|split]].
  - apply Forall_forall. intros x Hx. unfold pushed in Hx. apply in_map_iff in Hx as (i & <- & Hi).
    apply in_seq in Hi. unfold bump. pose proof (residual_nonneg i).
    destruct (memb i p) eqn:Em.
    + apply memb_In in Em. destruct (apath_valid s p Hap i Em) as (_ & x & Hx & Hpos).
      apply nth_error_nth with (d := 0%Z) in Hx. rewrite Hx. destruct (memb (revi i) p); lia.
    + destruct (memb (revi i) p); lia.
  - intros i a b Ha Hb. rewrite (ON _ _ Ha), (ON _ _ Hb), (Hanti i a b Ha Hb).
    unfold bump. pose proof (revi_revi i (nth_some_lt _ _ _ Ha)) as E.
    assert (revi i = a_rev a) as Er by (unfold revi; now rewrite Ha). rewrite Er in *. rewrite E. lia.
  - intros v H1 H2. rewrite OUT, Hcons by auto.
    rewrite (proj2 (Nat.eqb_neq s v)), (proj2 (Nat.eqb_neq t v)) by auto. reflexivity.
  - rewrite OUT, Hval, Nat.eqb_refl, (proj2 (Nat.eqb_neq s t)) by auto. cbn [ind]. lia.
Qed.
End One.

(** ** a maximum flow leaves the sink unreachable *)
Lemma max_flow_unreachable s t z r : s <> t -> max_flow d s t z r -> ~ dreach d r s t.
Proof.
  intros Hst [Hf Hmax] Hr. destruct (augment s t z r Hf Hst Hr) as (r' & Hf').
  specialize (Hmax _ _ Hf'). lia.
Qed.

Lemma max_flow_cut s t z r U : s <> t -> s < n_size d -> t < n_size d -> max_flow d s t z r ->
  NoDup U -> (forall v, In v U <-> v < n_size d /\ ~ dreach d r s v) ->
  In t U /\
  z = arc_sum (fun a => andb (negb (memb (a_src a) U)) (memb (a_dst a) U)) (fun _ a => a_cap a) 0 arcs.
Proof.
  intros Hst Hs Ht Hm HnU HU.
  assert (HtU : In t U) by (apply HU; split; auto; eapply max_flow_unreachable; eauto).
  split; auto. destruct Hm as [Hf _].
  apply (saturated s t z r Hf U HnU HtU).
  - intros H. apply HU in H as [_ H]. apply H. constructor.
  - intros u v Ha Hu Hv. apply HU in Hv as [_ Hv]. apply Hv.
    apply dr_step with u; auto. destruct (pos_arc_lt d r Hd u v Ha) as [Hu' _].
    destruct (in_dec Nat.eq_dec u U) as [|Hn]; [contradiction|].
    (* reachability is decided by the search *)
    destruct (reachable_ok d r Hd ltac:(apply Hf) s Hs) as (R & U' & _ & _ & _ & _ & HR & HU').
    destruct (in_dec Nat.eq_dec u R) as [H|H]; [now apply HR|].
    exfalso. apply Hn, HU. split; auto. intros Hr. apply H. now apply HR.
Qed.
End Flow.
