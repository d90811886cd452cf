(** * P_Gain: extension by unitary gain inserts best vertices and keeps closed tours. *)
From Coq Require Import SpecFloat Sorted Permutation.
From Verif Require Import Base Graph Spec M_Float M_Walk M_Graph M_Gain Spec_Gain
  P_Base P_Walk P_Float P_Choose P_Extension.
Open Scope nat_scope.

(** ** floats *)
Lemma f_lt_not_nan_l x y : f_lt x y = true -> not_nan x.
Proof. intros E ->. discriminate. Qed.

Lemma f_lt_not_nan_r x y : f_lt x y = true -> not_nan y.
Proof. intros E ->. destruct x as [[|]|[|]| |[|]]; discriminate. Qed.

Lemma f_lt_nan_r x : f_lt x S754_nan = false.
Proof. destruct x as [[|]|[|]| |[|]]; reflexivity. Qed.

Lemma f_nan_dec (x : float32) : {x = S754_nan} + {not_nan x}.
Proof. destruct x; (left; congruence) || (right; discriminate). Qed.

(** [b < x] and not [b < y]: then [y < x] or [y] is NaN; in any case not [x < y]. *)
Lemma f_below b x y : f_lt b x = true -> f_lt b y = false -> f_lt x y = false.
Proof.
  intros H1 H2. destruct (f_lt x y) eqn:E; auto.
  pose proof (f_lt_trans _ _ _ H1 E). congruence.
Qed.

Lemma f_above b x y : f_lt b x = true -> f_lt b y = false -> not_nan y -> f_lt y x = true.
Proof.
  intros H1 H2 Hy. destruct (f_lt y x) eqn:E; auto.
  rewrite (f_lt_ntrans b y x) in H1; auto; [eapply f_lt_not_nan_l|eapply f_lt_not_nan_r]; eauto.
Qed.

Lemma seq_sorted n k : StronglySorted lt (seq k n).
Proof.
  revert k. induction n as [|n IH]; intros k; cbn [seq]; constructor; auto.
  apply Forall_forall. intros x Hx. apply in_seq in Hx. lia.
Qed.

Lemma filter_sorted (f : nat -> bool) l : StronglySorted lt l -> StronglySorted lt (filter f l).
Proof.
  induction 1 as [|a l Hs IH Hall]; cbn [filter]; [constructor|].
  destruct (f a); auto. constructor; auto. rewrite Forall_forall in Hall |- *.
  intros x Hx. apply filter_In in Hx as [Hx _]. auto.
Qed.

Section Gain.
Context (g : graph) (c p : list Z) (C P : Z).
Context (Hc : costs_within g c (- C) C) (Hp : prizes_within g p (- P) P).
Context (H3C : (3 * C <= int_max)%Z).

Lemma cost_some u v e : step_edge g u v e -> exists x, nth_error c e = Some x /\ (- C <= x <= C)%Z.
Proof.
  intros [Hj _]. apply joins_lt in Hj. destruct Hc as [Hl Hf]. rewrite <- Hl in Hj.
  destruct (nth_error c e) as [x|] eqn:E.
  - exists x. split; auto. rewrite Forall_forall in Hf. apply Hf. eapply nth_error_In; eauto.
  - apply nth_error_None in E. lia.
Qed.

(** best of the insertions after positions in [lo, lo + length rest) seen so far *)
Definition seen_best (t : list nat) (v n : nat) (b : gain_entry) : Prop :=
  (forall i y, i < n -> gain_at g c p t v i y -> f_lt (fst b) y = false) /\
  match snd b with
  | None => fst b = f_zero
  | Some i => f_lt f_zero (fst b) = true /\ i < n /\ gain_at g c p t v i (fst b) /\
              forall i' y, i' < i -> gain_at g c p t v i' y -> not_nan y -> f_lt y (fst b) = true
  end.

Lemma gain_at_fun t v i x y : gain_at g c p t v i x -> gain_at g c p t v i y -> x = y.
Proof.
  intros (_ & _ & u & w & Hu & Hw & e1 & e2 & e3 & c1 & c2 & c3 & q & A1 & A2 & A3 & A4 & A5 & A6 & A7 & ->)
    (_ & _ & u' & w' & Hu' & Hw' & e1' & e2' & e3' & c1' & c2' & c3' & q' & B1 & B2 & B3 & B4 & B5 & B6 & B7 & ->).
  assert (u' = u) by congruence. assert (w' = w) by congruence. subst.
  pose proof (step_edge_unique _ _ _ _ _ A1 B1). pose proof (step_edge_unique _ _ _ _ _ A2 B2).
  pose proof (step_edge_unique _ _ _ _ _ A3 B3). subst. congruence.
Qed.

Lemma seen_step_none t v n b : seen_best t v n b ->
  (forall x, ~ gain_at g c p t v n x) -> seen_best t v (S n) b.
Proof.
  intros [H1 H2] Hn. split.
  - intros i y Hi Hy. destruct (Nat.eq_dec i n) as [->|]; [now apply Hn in Hy|].
    apply (H1 i y); auto. lia.
  - destruct (snd b) as [i|]; auto. destruct H2 as (A & B & D & E). auto.
Qed.

Lemma seen_step_some t v n b x : seen_best t v n b -> gain_at g c p t v n x ->
  seen_best t v (S n) (if f_lt (fst b) x then (x, Some n) else b).
Proof.
  intros [H1 H2] Hx. destruct (f_lt (fst b) x) eqn:E.
  - split; cbn [fst snd].
    + intros i y Hi Hy. destruct (Nat.eq_dec i n) as [->|].
      * rewrite (gain_at_fun _ _ _ _ _ Hy Hx). apply f_lt_irrefl.
      * eapply f_below; [exact E|]. apply (H1 i y); auto. lia.
    + split; [|split; [lia|split; [auto|]]].
      * destruct (snd b) as [i|].
        { destruct H2 as (H2 & _). eapply f_lt_trans; eauto. }
        { rewrite <- H2. auto. }
      * intros i' y Hi' Hy Hn. eapply f_above; [exact E| |auto]. apply (H1 i' y); auto.
  - split.
    + intros i y Hi Hy. destruct (Nat.eq_dec i n) as [->|].
      * now rewrite (gain_at_fun _ _ _ _ _ Hy Hx).
      * apply (H1 i y); auto. lia.
    + destruct (snd b) as [i|]; auto. destruct H2 as (A & B & D & F). auto.
Qed.

Lemma unitary_gain_ok q cuw cuv cvw :
  (- C <= cuw <= C)%Z -> (- C <= cuv <= C)%Z -> (- C <= cvw <= C)%Z ->
  unitary_gain q cuw cuv cvw = Ok (f_div (f_of_int q) (f_of_int (cuv + cvw - cuw))).
Proof.
  intros. unfold unitary_gain. unfold int_max in H3C.
  rewrite chk_ok by (unfold int_min, int_max; lia). cbn [bind].
  rewrite chk_ok by (unfold int_min, int_max; lia). reflexivity.
Qed.

Lemma gain_loop_ok t v q : v < gn g -> ~ In v t -> is_walk g t -> Forall (fun x => x < gn g) t ->
  nth_error p v = Some q ->
  forall rest u i b, (forall k, nth_error (u :: rest) k = nth_error t (i + k)) ->
    seen_best t v i b ->
    exists b', gain_loop g c q v u rest i b = Ok b' /\ seen_best t v (i + length rest) b'.
Proof.
  intros Hv Hnin Hw Hf Hq. rewrite Forall_forall in Hf.
  induction rest as [|w rest IH]; intros u i b Hn Hb; cbn [gain_loop length].
  - exists b. rewrite Nat.add_0_r. auto.
  - pose proof (Hn 0) as Hu. pose proof (Hn 1) as Hww. cbn [nth_error] in Hu, Hww.
    rewrite Nat.add_0_r in Hu. rewrite Nat.add_1_r in Hww. symmetry in Hu, Hww.
    assert (Hur : u < gn g) by (apply Hf; eapply nth_error_In; eauto).
    assert (Hwr : w < gn g) by (apply Hf; eapply nth_error_In; eauto).
    assert (Huw : is_edge g u w) by (eapply (proj1 (is_walk_nth g t)); eauto).
    destruct (edge_total g u v Hur) as [uv Euv]. destruct (edge_total g v w Hv) as [vw Evw].
    destruct (edge_exists g u w Hur Huw) as [euw Euw].
    rewrite Euv, Evw, Euw. cbn [bind].
    assert (Hnext : forall k, nth_error (w :: rest) k = nth_error t (S i + k)).
    { intros k. pose proof (Hn (S k)) as Hk. cbn [nth_error] in Hk |- *.
      replace (S i + k) with (i + S k) by lia. exact Hk. }
    assert (Hnone : uv = None \/ vw = None -> forall x, ~ gain_at g c p t v i x).
    { intros Hor x (_ & _ & u' & w' & Hu' & Hw' & e1 & e2 & e3 & c1 & c2 & c3 & q' & A1 & A2 & _).
      assert (u' = u) by congruence. assert (w' = w) by congruence. subst.
      destruct Hor as [->| ->].
      - apply edge_None in Euv. apply Euv. exists e1. apply A1.
      - apply edge_None in Evw. apply Evw. exists e2. apply A2. }
    assert (Htry : exists b1, gain_try c q i uv vw euw b = Ok b1 /\ seen_best t v (S i) b1).
    { unfold gain_try. destruct uv as [euv|]; [destruct vw as [evw|]|].
      - apply edge_Some in Euv. apply edge_Some in Evw. apply edge_Some in Euw.
        destruct (cost_some _ _ _ Euv) as (cuv & E1 & B1).
        destruct (cost_some _ _ _ Evw) as (cvw & E2 & B2).
        destruct (cost_some _ _ _ Euw) as (cuw & E3 & B3).
        unfold cost_of. rewrite (vget_some _ _ _ E1), (vget_some _ _ _ E2), (vget_some _ _ _ E3).
        cbn [bind]. rewrite unitary_gain_ok by auto. cbn [bind].
        eexists; split; [reflexivity|]. apply seen_step_some; auto.
        split; [auto|]. split; [auto|]. exists u, w. split; [auto|]. split; [auto|].
        exists euv, evw, euw, cuv, cvw, cuw, q. tauto.
      - eexists; split; [reflexivity|]. apply seen_step_none; auto.
      - eexists; split; [reflexivity|]. apply seen_step_none; auto. }
    destruct Htry as (b1 & E & Hb1). rewrite E. cbn [bind].
    destruct (IH w (S i) b1 Hnext Hb1) as (b' & E' & Hb'). exists b'. split; auto.
    now rewrite Nat.add_succ_r.
Qed.

Lemma gain_at_lt t v i x : gain_at g c p t v i x -> S i < length t.
Proof. intros (_ & _ & u & w & _ & Hw & _). now apply nth_error_Some_lt in Hw. Qed.

Definition vertex_gain (t : list nat) (v : nat) (b : gain_entry) : Prop :=
  (forall i y, gain_at g c p t v i y -> f_lt (fst b) y = false) /\
  match snd b with
  | None => fst b = f_zero
  | Some i => f_lt f_zero (fst b) = true /\ gain_at g c p t v i (fst b) /\
              forall i' y, i' < i -> gain_at g c p t v i' y -> not_nan y -> f_lt y (fst b) = true
  end.

Lemma unitary_gain_of_vertex_ok t v : t <> [] -> v < gn g -> ~ In v t -> is_walk g t ->
  Forall (fun x => x < gn g) t ->
  exists b, unitary_gain_of_vertex g t c p v = Ok b /\ vertex_gain t v b.
Proof.
  intros Hne Hv Hnin Hw Hf. destruct t as [|u rest]; [congruence|].
  unfold unitary_gain_of_vertex. destruct Hp as [Hl _].
  destruct (vget_ok p v) as (q & E & Hq); [lia|]. unfold prize_of. rewrite E. cbn [bind].
  destruct (gain_loop_ok (u :: rest) v q Hv Hnin Hw Hf Hq rest u 0 (f_zero, None)) as (b & Eb & Hb);
    [auto| |].
  - split; [intros; lia|reflexivity].
  - exists b. split; auto. destruct Hb as [H1 H2]. split.
    + intros i y Hy. apply (H1 i y); auto. apply gain_at_lt in Hy. cbn [length] in Hy. lia.
    + destruct (snd b); auto. tauto.
Qed.

(** ** the gain map *)
Lemma gm_get_set_same m v e : gm_get (gm_set m v e) v = e.
Proof.
  induction m as [|[k x] t IH]; cbn [gm_set gm_get]; [now rewrite Nat.eqb_refl|].
  destruct (Nat.ltb_spec v k); cbn [gm_get]; [now rewrite Nat.eqb_refl|].
  destruct (Nat.eqb_spec v k) as [->|Hne]; cbn [gm_get]; [now rewrite Nat.eqb_refl|].
  destruct (Nat.eqb_spec v k); [congruence|auto].
Qed.

Lemma gm_get_set_other m v w e : v <> w -> gm_get (gm_set m v e) w = gm_get m w.
Proof.
  intros Hne. induction m as [|[k x] t IH]; cbn [gm_set gm_get].
  - destruct (Nat.eqb_spec w v); congruence.
  - destruct (Nat.ltb_spec v k); cbn [gm_get].
    + destruct (Nat.eqb_spec w v); congruence.
    + destruct (Nat.eqb_spec v k) as [->|Hk]; cbn [gm_get].
      * destruct (Nat.eqb_spec w k); congruence.
      * destruct (Nat.eqb_spec w k); auto.
Qed.

(** appending a key larger than all others *)
Lemma gm_set_snoc m v e : Forall (fun kx => fst kx < v) m -> gm_set m v e = m ++ [(v, e)].
Proof.
  induction 1 as [|[k x] t Hk Ht IH]; cbn [gm_set app]; auto. cbn [fst] in Hk.
  destruct (Nat.ltb_spec v k); [lia|]. destruct (Nat.eqb_spec v k); [lia|]. now rewrite IH.
Qed.

(** ** findVertexWithBiggestGain *)
Lemma find_fold_ok t in_tour m : t <> [] -> is_walk g t -> Forall (fun x => x < gn g) t ->
  (forall v, In v in_tour <-> In v t) ->
  exists m' best, foldM (find_gain_step g t c p in_tour) (vertices g) (m, None) = Ok (m', best) /\
    (forall v, v < gn g -> ~ In v t -> vertex_gain t v (gm_get m' v)) /\
    match best with
    | None => forall v i y, gain_at g c p t v i y -> f_lt f_zero y = false
    | Some (v, x) => exists i, gm_get m' v = (x, Some i) /\ best_gain g c p t v i x
    end /\
    (m = [] -> exists vs, map fst m' = vs /\ StronglySorted lt vs /\
        (forall v, In v vs <-> v < gn g /\ ~ In v t)).
Proof.
  intros Hne Hw Hf Hin.
  destruct (foldM_inv (find_gain_step g t c p in_tour)
    (fun done st => let '(m', best) := st in
       (forall v, In v done -> ~ In v t -> vertex_gain t v (gm_get m' v)) /\
       match best with
       | None => forall v i y, In v done -> gain_at g c p t v i y -> f_lt f_zero y = false
       | Some (v, x) => In v done /\ exists i, gm_get m' v = (x, Some i) /\
           gain_at g c p t v i x /\ f_lt f_zero x = true /\
           forall v' i' x', In v' done -> gain_at g c p t v' i' x' ->
             f_lt x x' = false /\
             ((v' < v \/ v' = v /\ i' < i) -> x' <> S754_nan -> f_lt x' x = true)
       end /\
       (m = [] -> map fst m' = filter (fun v => negb (memb v in_tour)) done))
    (vertices g) (m, None)) as ([m' best] & E & H1 & H2 & H3).
  - split; [intros v []|]. split; [intros v i y []|]. intros ->. reflexivity.
  - intros done v rest [m1 best] Evs (H1 & H2 & H3).
    assert (Hdl : forall a, In a done -> a < v).
    { intros a Ha. unfold vertices in Evs.
      assert (Hs : StronglySorted lt (done ++ v :: rest)).
      { rewrite <- Evs. apply seq_sorted. }
      clear - Hs Ha. induction done as [|b d IH]; [destruct Ha|].
      inversion Hs as [|? ? Hs' Hall]; subst. destruct Ha as [->|Ha]; auto.
      rewrite Forall_forall in Hall. apply Hall. apply in_app_iff. right. now left. }
    assert (Hv : v < gn g).
    { assert (Hv : In v (vertices g)) by (rewrite Evs; apply in_app_iff; right; now left).
      unfold vertices in Hv. apply in_seq in Hv. lia. }
    unfold find_gain_step. destruct (memb v in_tour) eqn:Em.
    + exists (m1, best). split; [reflexivity|].
      apply memb_In in Em as Ht0. apply Hin in Ht0.
      split; [|split].
      * intros a Ha Hna. apply in_app_iff in Ha as [Ha|[<-|[]]]; [auto|contradiction].
      * destruct best as [[b x]|].
        { destruct H2 as (Hd & i & A & B & D & F). split; [apply in_app_iff; auto|].
          exists i. split; [auto|]. split; [auto|]. split; [auto|].
          intros v' i' x' Hv' Hg'. apply in_app_iff in Hv' as [Hv'|[<-|[]]]; [eauto|].
          destruct Hg' as (_ & Hn' & _). contradiction. }
        { intros a i y Ha Hg'. apply in_app_iff in Ha as [Ha|[<-|[]]]; [eauto|].
          destruct Hg' as (_ & Hn' & _). contradiction. }
      * intros Hm. rewrite filter_app. cbn [filter]. rewrite Em. cbn [negb]. rewrite app_nil_r. auto.
    + assert (Hvt : ~ In v t) by (rewrite <- Hin; now apply memb_not_In).
      destruct (unitary_gain_of_vertex_ok t v Hne Hv Hvt Hw Hf) as (e & Ee & He).
      rewrite Ee. cbn [bind]. eexists; split; [reflexivity|]. cbn beta iota.
      split; [|split].
      * intros a Ha Hna. apply in_app_iff in Ha as [Ha|[<-|[]]].
        { rewrite gm_get_set_other; [auto|]. specialize (Hdl a Ha). lia. }
        { now rewrite gm_get_set_same. }
      * set (big := match best with None => f_zero | Some (_, b) => b end) in *.
        assert (Hbig : big = f_zero \/ f_lt f_zero big = true).
        { unfold big. destruct best as [[b x]|]; [|now left]. right.
          destruct H2 as (_ & i & _ & _ & D & _). auto. }
        assert (Hold : forall v' i' x', In v' done -> gain_at g c p t v' i' x' -> f_lt big x' = false).
        { intros v' i' x' Hd Hg'. unfold big. destruct best as [[b x]|]; [|eauto].
          destruct H2 as (_ & i & _ & _ & _ & F). now apply (F v' i' x'). }
        destruct He as [He1 He2].
        destruct (f_lt big (fst e)) eqn:El.
        { split; [apply in_app_iff; right; now left|].
          destruct (snd e) as [i|] eqn:Ei.
          2:{ exfalso. rewrite He2 in El. destruct Hbig as [Hb|Hb].
              - rewrite Hb in El. discriminate.
              - apply f_lt_asym in Hb. congruence. }
          destruct He2 as (G1 & G2 & G3). exists i. rewrite gm_get_set_same.
          split; [rewrite (surjective_pairing e) at 1; now rewrite Ei|].
          split; [auto|]. split; [auto|].
          intros v' i' x' Hv' Hg'. apply in_app_iff in Hv' as [Hv'|[<-|[]]].
          - specialize (Hold v' i' x' Hv' Hg'). split; [eapply f_below; eauto|].
            intros _ Hnn. eapply f_above; eauto.
          - split; [eauto|]. intros [Hlt|[_ Hlt]] Hnn; [lia|]. now apply (G3 i' x'). }
        { destruct best as [[b x]|].
          - destruct H2 as (Hd & i & A & B & D & F). split; [apply in_app_iff; auto|].
            exists i. split; [rewrite gm_get_set_other; [auto|]; specialize (Hdl b Hd); lia|].
            split; [auto|]. split; [auto|].
            intros v' i' x' Hv' Hg'. apply in_app_iff in Hv' as [Hv'|[<-|[]]]; [eauto|].
            assert (Hx : f_lt x x' = false).
            { destruct (f_lt x x') eqn:Ex; auto.
              pose proof (He1 i' x' Hg') as Hx'.
              unfold big in El.
              destruct (f_nan_dec (fst e)) as [Hna|Hnn].
              + exfalso. destruct (snd e) as [i0|]; [|rewrite He2 in Hna; discriminate].
                destruct He2 as (G1 & _). apply f_lt_not_nan_r in G1. contradiction.
              + rewrite <- Ex. apply f_lt_ntrans with (fst e); auto.
                * eapply f_lt_not_nan_l; eauto.
                * eapply f_lt_not_nan_r; eauto. }
            split; [auto|]. intros [Hlt|[Heq _]] _; specialize (Hdl b Hd); lia.
          - intros a i y Ha Hg'. apply in_app_iff in Ha as [Ha|[<-|[]]]; [eauto|].
            specialize (He1 i y Hg'). unfold big in El.
            destruct (snd e) as [i0|]; [destruct He2 as (G1 & _); congruence|].
            now rewrite He2 in He1. }
      * intros Hm. rewrite filter_app. cbn [filter]. rewrite Em. cbn [negb].
        rewrite <- (H3 Hm). rewrite gm_set_snoc.
        { rewrite map_app. reflexivity. }
        { apply Forall_forall. intros [k x] Hk. cbn [fst].
          assert (Hk' : In k (map fst m1)) by (apply in_map_iff; exists (k, x); auto).
          rewrite (H3 Hm) in Hk'. apply filter_In in Hk' as [Hk' _]. auto. }
  - exists m', best. split; [exact E|]. split; [|split].
    + intros v Hv Hn. apply H1; auto. unfold vertices. apply in_seq. lia.
    + assert (Hall : forall v i y, gain_at g c p t v i y -> In v (vertices g)).
      { intros v i y (Hv & _). unfold vertices. apply in_seq. lia. }
      destruct best as [[v x]|].
      * destruct H2 as (_ & i & A & B & D & F). exists i. split; [auto|].
        split; [auto|]. split; [auto|]. intros v' i' x' Hg'. eapply F; eauto.
      * intros v i y Hy. eapply H2; eauto.
    + intros Hm. exists (map fst m'). split; [auto|]. rewrite (H3 Hm). split.
      * apply filter_sorted, seq_sorted.
      * intros v. rewrite filter_In. unfold vertices. rewrite in_seq.
        rewrite negb_true_iff, memb_not_In, Hin. intuition lia.
Qed.

Lemma find_vertex_ok t in_tour m : t <> [] -> is_walk g t -> Forall (fun x => x < gn g) t ->
  (forall v, In v in_tour <-> In v t) ->
  (find_vertex_with_biggest_gain g t c p m in_tour = Throw NoGainVertexFoundException /\
   (forall v i y, gain_at g c p t v i y -> f_lt f_zero y = false) /\
   (m = [] -> exists a, average_gain g c p t a)) \/
  (exists m' v x i, find_vertex_with_biggest_gain g t c p m in_tour = Ok (m', v) /\
     gm_get m' v = (x, Some i) /\ best_gain g c p t v i x /\
     (m = [] -> average_gain g c p t (calculate_average_gain in_tour m'))).
Proof.
  intros Hne Hw Hf Hin.
  destruct (find_fold_ok t in_tour m Hne Hw Hf Hin) as (m' & best & E & H1 & H2 & H3).
  unfold find_vertex_with_biggest_gain. rewrite E. cbn [bind].
  assert (Havg : m = [] -> average_gain g c p t (calculate_average_gain in_tour m')).
  2:{ destruct best as [[v x]|]; [right|left; split; [auto|split; [auto|]]].
      - destruct H2 as (i & Hi & Hb). exists m', v, x, i. auto.
      - intros Hm. eexists. apply Havg, Hm. }
  intros Hm. clear H2. destruct (H3 Hm) as (vs & Evs & Hs & Hvs).
  assert (Hget : forall k e, In (k, e) m' -> gm_get m' k = e).
  { rewrite <- Evs in Hs. clear - Hs. induction m' as [|[k0 e0] m' IH]; intros k e []; cbn [gm_get].
    - inversion H; subst. now rewrite Nat.eqb_refl.
    - inversion Hs as [|? ? Hs' Hall]; subst. destruct (Nat.eqb_spec k k0) as [->|].
      + rewrite Forall_forall in Hall. specialize (Hall k0).
        exfalso. apply (Nat.lt_irrefl k0). apply Hall. apply in_map_iff. exists (k0, e). auto.
      + auto. }
  exists vs, (map (fun kx => fst (snd kx)) m'). split; [auto|]. split; [auto|]. split.
  - rewrite <- Evs in Hvs |- *. clear Evs Hs E.
    assert (Hall : forall k e, In (k, e) m' -> vertex_gain t k e).
    { intros k e Hk. rewrite <- (Hget k e Hk).
      assert (Hk' : In k (map fst m')) by (apply in_map_iff; exists (k, e); auto).
      apply Hvs in Hk' as [A B]. now apply H1. }
    clear - Hall. induction m' as [|[k e] m' IH]; cbn [map]; constructor.
    + cbn [fst snd]. destruct (Hall k e (or_introl eq_refl)) as [G1 G2]. split; [auto|].
      destruct (snd e) as [i|]; [right|now left]. split; [tauto|]. exists i. tauto.
    + apply IH. intros k' e' H'. apply Hall. now right.
  - unfold calculate_average_gain.
    assert (Hout : forall k e, In (k, e) m' -> memb k in_tour = false).
    { intros k e Hk. apply memb_not_In. rewrite Hin.
      assert (Hk' : In k vs) by (rewrite <- Evs; apply in_map_iff; exists (k, e); auto).
      apply Hvs in Hk'. tauto. }
    assert (Hfold : forall s n, fold_left (fun '(s, k) '(key, val) =>
                 if memb key in_tour then (s, k) else (f_add s (fst val), k + 1)%Z) m' (s, n)
       = (fold_left f_add (map (fun kx => fst (snd kx)) m') s,
          (n + Z.of_nat (length (map (fun kx : nat * gain_entry => fst (snd kx)) m')))%Z)).
    { clear - Hout. induction m' as [|[k e] m' IH]; intros s n; cbn [fold_left map length].
      - f_equal. lia.
      - rewrite (Hout k e) by now left. rewrite IH; [|intros; apply (Hout k0 e0); now right].
        cbn [fst snd]. f_equal. lia. }
    rewrite Hfold. rewrite Z.add_0_l. reflexivity.
Qed.

(** ** one insertion *)
Lemma insert_ok t v m x i : gm_get m v = (x, Some i) -> S i < length t ->
  insert_biggest_gain_vertex t v m = Ok (firstn (S i) t ++ v :: skipn (S i) t).
Proof.
  intros Hm Hi. unfold insert_biggest_gain_vertex. rewrite Hm. cbn [snd].
  destruct (Nat.leb_spec (S i) (length t)); [auto|lia].
Qed.

Lemma insert_closed r m t v i x : closed_tour g r 1 t -> 1 <= m -> m <= 2 -> gain_at g c p t v i x ->
  closed_tour g r m (firstn (S i) t ++ v :: skipn (S i) t).
Proof.
  intros Ht Hm1 Hm (Hv & Hn & u & w & Hu & Hw & e1 & e2 & e3 & c1 & c2 & c3 & q & A1 & A2 & _).
  pose proof (nth_error_Some_lt _ _ _ Hw) as Hl.
  destruct (closed_len g r 1 t Ht) as (k & Hk & Hk1 & _).
  assert (E1 : firstn (S i) t = firstn i t ++ [u]).
  { clear - Hu. revert i Hu. induction t as [|a t IH]; intros [|i] Hu; try discriminate; cbn [nth_error] in Hu.
    - inversion Hu; subst. destruct t; reflexivity.
    - cbn [firstn app]. f_equal. now apply IH. }
  assert (E2 : skipn (S i) t = w :: skipn (S (S i)) t).
  { clear - Hw. revert Hw. generalize (S i) as j. clear. intros j; revert j.
    induction t as [|a t IH]; intros [|j] Hw; try discriminate; cbn [nth_error] in Hw.
    - inversion Hw; subst. reflexivity.
    - cbn [skipn]. rewrite (IH j Hw). destruct t; reflexivity. }
  assert (Et : t = firstn i t ++ u :: [] ++ w :: skipn (S (S i)) t).
  { rewrite <- (firstn_skipn (S i) t) at 1. rewrite E1, E2, <- app_assoc. reflexivity. }
  rewrite E1, E2, <- app_assoc. cbn [app].
  change (u :: v :: w :: skipn (S (S i)) t) with ((u :: [v] ++ [w]) ++ skipn (S (S i)) t).
  apply (closed_weaken g r 2 m); [auto|].
  destruct Ht as (vs & Et0 & H1 & H2 & H3 & H4).
  rewrite Forall_forall in H4.
  eapply replace_tour_closed with (M := []) (t := t); auto.
  - exists vs. rewrite Forall_forall. auto.
  - destruct i as [|i]; [right|left].
    + intros E. rewrite E in Et. rewrite Et in Hk. simpl in Hk. lia.
    + destruct t; [simpl in Hl; lia|]. discriminate.
  - discriminate.
  - repeat constructor. intros [].
  - intros y [<-|[]]. auto.
  - cbn [app]. constructor; [exists e1; apply A1|]. constructor; [exists e2; apply A2|constructor].
  - repeat constructor; auto; apply H4; eapply nth_error_In; eauto.
Qed.

(** ** runs *)
Lemma gain_pos_prize q y : (0 <= q)%Z -> f_lt f_zero (f_div (f_of_int q) y) = true -> (0 < q)%Z.
Proof.
  intros Hq H. destruct (Z.eq_dec q 0) as [->|]; [|lia]. rewrite f_of_int_0 in H.
  destruct y as [[|]|[|]| |[|]]; discriminate.
Qed.

Lemma subseq_refl l : subseq l l.
Proof. induction l; constructor; auto. Qed.

Lemma subseq_trans a b d : subseq a b -> subseq b d -> subseq a d.
Proof.
  intros H1 H2. revert a H1. induction H2 as [|x b d H2 IH|x b d H2 IH]; intros a H1; auto.
  - inversion H1; subst; constructor; auto.
  - constructor; auto.
Qed.

Lemma subseq_insert A v B : subseq (A ++ B) (A ++ v :: B).
Proof. induction A; cbn [app]; constructor; auto. apply subseq_refl. Qed.

Lemma insert_closed' r A B v x : closed_tour g r 1 (A ++ B) -> 1 <= length A ->
  gain_at g c p (A ++ B) v (length A - 1) x -> closed_tour g r 2 (A ++ v :: B).
Proof.
  intros Ht Hl Hx. pose proof (insert_closed r 2 _ _ _ _ Ht ltac:(lia) (le_n _) Hx) as H.
  replace (S (length A - 1)) with (length A) in H by lia.
  rewrite firstn_app, firstn_all, Nat.sub_diag in H. cbn [firstn] in H. rewrite app_nil_r in H.
  rewrite skipn_app, skipn_all, Nat.sub_diag in H. exact H.
Qed.

Lemma gain_steps_closed ok r k t t' : closed_tour g r 1 t -> gain_steps g c p ok k t t' ->
  closed_tour g r 1 t' /\ (t' = t \/ closed_tour g r 2 t') /\ length t' = k + length t /\ subseq t t'.
Proof.
  intros Ht H. induction H as [t|k A B v x t' Hb Ho Hl Hs IH].
  - split; [auto|]. split; [auto|]. split; [auto|]. apply subseq_refl.
  - destruct Hb as (Hga & _). pose proof (insert_closed' r A B v x Ht Hl Hga) as H2.
    destruct (IH (closed_weaken g r 2 1 _ (le_S _ _ (le_n _)) H2)) as (A1 & A2 & A3 & A4).
    split; [auto|]. split; [right; destruct A2 as [->|A2]; auto|]. split.
    + rewrite A3, !app_length. cbn [length]. lia.
    + eapply subseq_trans; [apply subseq_insert|exact A4].
Qed.

Lemma insert_prize r A B v q z : closed_tour g r 1 (A ++ B) -> 1 <= length A -> B <> [] ->
  nth_error p v = Some q -> tour_prize p (A ++ B) z -> tour_prize p (A ++ v :: B) (q + z).
Proof.
  intros _ Hl HB Hq Hz. unfold tour_prize in *.
  rewrite removelast_app in Hz by auto. rewrite removelast_app by discriminate.
  replace (removelast (v :: B)) with (v :: removelast B) by (destruct B; [congruence|reflexivity]).
  apply prize_sum_perm with (v :: A ++ removelast B).
  - apply Permutation_middle.
  - constructor; auto.
Qed.

Lemma gain_at_B A B v x : gain_at g c p (A ++ B) v (length A - 1) x -> 1 <= length A -> B <> [].
Proof.
  intros H Hl. apply gain_at_lt in H. rewrite app_length in H. intros ->. simpl in H. lia.
Qed.

Lemma gain_steps_prize ok r k t t' z : prizes_within g p 0 P -> closed_tour g r 1 t ->
  gain_steps g c p ok k t t' -> tour_prize p t z ->
  exists z', tour_prize p t' z' /\ (z + Z.of_nat k <= z')%Z.
Proof.
  intros Hp0 Ht H. revert z. induction H as [t|k A B v x t' Hb Ho Hl Hs IH]; intros z Hz.
  - exists z. split; auto. lia.
  - destruct Hb as (Hga & Hpos & _). pose proof (insert_closed' r A B v x Ht Hl Hga) as H2.
    pose proof (gain_at_B _ _ _ _ Hga Hl) as HB.
    destruct Hga as (_ & _ & u & w & _ & _ & e1 & e2 & e3 & c1 & c2 & c3 & q & _ & _ & _ & _ & _ & _ & Hq & ->).
    pose proof (insert_prize r A B v q z Ht Hl HB Hq Hz) as Hz1.
    assert (Hq1 : (0 < q)%Z).
    { apply gain_pos_prize with (f_of_int (c1 + c2 - c3)); auto.
      destruct Hp0 as [_ Hf]. rewrite Forall_forall in Hf. apply nth_error_In in Hq. apply Hf in Hq. lia. }
    destruct (IH (closed_weaken g r 2 1 _ (le_S _ _ (le_n _)) H2) _ Hz1) as (z' & Hz' & L).
    exists z'. split; auto. lia.
Qed.

Lemma closed_ne r m t : closed_tour g r m t -> t <> [] /\ is_walk g t /\ Forall (fun v => v < gn g) t.
Proof. intros (vs & -> & _ & _ & Hw & Hf). split; [discriminate|auto]. Qed.

Lemma in_tour_insert (t : list nat) v i in_tour : (forall x, In x in_tour <-> In x t) ->
  forall x, In x (v :: in_tour) <-> In x (firstn (S i) t ++ v :: skipn (S i) t).
Proof.
  intros H x. rewrite <- (firstn_skipn (S i) t) in H. specialize (H x).
  rewrite in_app_iff in H |- *. cbn [In]. tauto.
Qed.

Lemma gain_steps_cons (ok : list nat -> float32 -> Prop) k t v i x t' :
  best_gain g c p t v i x -> ok t x ->
  gain_steps g c p ok k (firstn (S i) t ++ v :: skipn (S i) t) t' ->
  gain_steps g c p ok (S k) t t'.
Proof.
  intros Hb Ho Hs.
  assert (Hl : length (firstn (S i) t) = S i).
  { destruct Hb as (Hga & _). apply gain_at_lt in Hga. rewrite firstn_length. lia. }
  rewrite <- (firstn_skipn (S i) t). apply gs_step with v x; auto.
  - rewrite firstn_skipn, Hl. replace (S i - 1) with i by lia. auto.
  - now rewrite firstn_skipn.
  - lia.
Qed.

Lemma unitary_gain_loop_ok r : forall fuel t in_tour m avg, closed_tour g r 1 t ->
  (forall x, In x in_tour <-> In x t) -> (avg = None -> m = []) -> gn g + 1 < fuel + length t ->
  exists t' k a, unitary_gain_loop fuel g t c p in_tour m avg = Ok t' /\
    gain_steps g c p (fun _ x => f_lt a x = true) k t t' /\
    match avg with Some a0 => a = a0 | None => average_gain g c p t a end /\
    (forall v i x, gain_at g c p t' v i x -> f_lt f_zero x = true -> f_lt a x = false).
Proof.
  induction fuel as [|fuel IH]; intros t in_tour m avg Ht Hin Hm Hfuel.
  - destruct (closed_len g r 1 t Ht) as (k & Hk & _ & Hkn & _). lia.
  - destruct (closed_ne r 1 t Ht) as (Hne & Hw & Hf). cbn [unitary_gain_loop].
    destruct (find_vertex_ok t in_tour m Hne Hw Hf Hin)
      as [(E & Hstuck & Hav)|(m' & v & x & i & E & Hget & Hbest & Hav)]; rewrite E.
    + assert (Ha : exists a, match avg with Some a0 => a = a0 | None => average_gain g c p t a end)
        by (destruct avg; eauto).
      destruct Ha as [a Ha]. exists t, 0, a. split; [auto|]. split; [constructor|]. split; [auto|].
      intros w j y Hy Hpos. rewrite (Hstuck w j y Hy) in Hpos. discriminate.
    + rewrite Hget. cbn [fst].
      set (a := match avg with None => calculate_average_gain in_tour m' | Some a => a end).
      assert (Ha : match avg with Some a0 => a = a0 | None => average_gain g c p t a end).
      { unfold a. destruct avg; auto. }
      destruct (f_lt a x) eqn:El.
      * pose proof Hbest as (Hga & _). pose proof (gain_at_lt _ _ _ _ Hga) as Hi.
        rewrite (insert_ok t v m' x i Hget Hi). cbn [bind].
        assert (Hc1 : closed_tour g r 1 (firstn (S i) t ++ v :: skipn (S i) t))
          by (eapply insert_closed; eauto).
        assert (Hl1 : length (firstn (S i) t ++ v :: skipn (S i) t) = S (length t)).
        { rewrite app_length. cbn [length]. rewrite firstn_length, skipn_length. lia. }
        destruct (IH (firstn (S i) t ++ v :: skipn (S i) t) (v :: in_tour) m' (Some a) Hc1
                    (in_tour_insert t v i in_tour Hin) ltac:(discriminate) ltac:(lia))
          as (t' & k & a' & E' & Hs & -> & Hst).
        exists t', (S k), a. split; [exact E'|]. split; [|split; auto].
        eapply gain_steps_cons; eauto.
      * exists t, 0, a. split; [auto|]. split; [constructor|]. split; [auto|].
        intros w j y Hy Hpos. destruct Hbest as (_ & Hx0 & Hmx). destruct (Hmx w j y Hy) as [Hxy _].
        destruct (f_nan_dec a) as [->|Hna]; [destruct y as [[|]|[|]| |[|]]; reflexivity|].
        apply f_lt_ntrans with x; auto; eapply f_lt_not_nan_r; eauto.
Qed.

Lemma extension_unitary_gain_ok r t : closed_tour g r 1 t ->
  exists t' k a, extension_unitary_gain g t c p = Ok t' /\
    gain_steps g c p (fun _ x => f_lt a x = true) k t t' /\ average_gain g c p t a /\
    (forall v i x, gain_at g c p t' v i x -> f_lt f_zero x = true -> f_lt a x = false) /\
    closed_tour g r 1 t' /\ (t' = t \/ closed_tour g r 2 t') /\ subseq t t' /\
    length t' = k + length t /\ k + length t <= S (gn g).
Proof.
  intros Ht. unfold extension_unitary_gain, num_vertices.
  destruct (closed_len g r 1 t Ht) as (k0 & Hk & Hk1 & _).
  destruct (unitary_gain_loop_ok r (S (gn g)) t t [] None Ht) as (t' & k & a & E & Hs & Ha & Hst);
    [tauto|auto|lia|].
  destruct (gain_steps_closed _ r k t t' Ht Hs) as (A1 & A2 & A3 & A4).
  destruct (closed_len g r 1 t' A1) as (k1 & Hk1' & _ & Hn & _).
  exists t', k, a. repeat (split; [now auto|]). lia.
Qed.

(** ** until the quota is met *)
Context (HP : (0 <= P)%Z) (HLP : (Z.of_nat (S (gn g)) * P <= int_max)%Z).

Lemma until_gain_loop_ok r quota : forall fuel t in_tour m prize attempts ins, closed_tour g r 1 t ->
  (forall x, In x in_tour <-> In x t) -> tour_prize p t prize -> attempts + 2 < length t ->
  (ins = false -> forall v i x, gain_at g c p t v i x -> f_lt f_zero x = false) ->
  gn g + (if ins then 2 else 1) < fuel + length t ->
  exists t' k, until_gain_loop fuel g t c p in_tour m prize quota attempts ins = Ok t' /\
    gain_steps g c p (fun s _ => exists z, tour_prize p s z /\ (z < quota)%Z) k t t' /\
    ((exists z, tour_prize p t' z /\ (quota <= z)%Z) \/
     (forall v i x, gain_at g c p t' v i x -> f_lt f_zero x = false)).
Proof.
  induction fuel as [|fuel IH]; intros t in_tour m prize attempts ins Ht Hin Hz Hatt Hins Hfuel.
  - destruct (closed_len g r 1 t Ht) as (k & Hk & _ & Hkn & _). destruct ins; lia.
  - destruct (closed_ne r 1 t Ht) as (Hne & Hw & Hf). cbn [until_gain_loop].
    destruct (Z.ltb_spec prize quota) as [Hq|Hq]; cbn [andb].
    2:{ exists t, 0. split; [auto|]. split; [constructor|]. left. eauto. }
    destruct ins.
    2:{ exists t, 0. split; [auto|]. split; [constructor|]. right. exact (Hins eq_refl). }
    destruct (find_vertex_ok t in_tour m Hne Hw Hf Hin)
      as [(E & Hstuck & _)|(m' & v & x & i & E & Hget & Hbest & _)]; rewrite E.
    + apply IH; auto. lia.
    + pose proof Hbest as (Hga & _). pose proof (gain_at_lt _ _ _ _ Hga) as Hi.
      rewrite (insert_ok t v m' x i Hget Hi). cbn [bind].
      assert (Hc1 : closed_tour g r 1 (firstn (S i) t ++ v :: skipn (S i) t))
        by (eapply insert_closed; eauto).
      assert (Hl1 : length (firstn (S i) t ++ v :: skipn (S i) t) = S (length t)).
      { rewrite app_length. cbn [length]. rewrite firstn_length, skipn_length. lia. }
      destruct (closed_len g r 1 _ Hc1) as (k1 & Hk1 & _ & Hk1n & _).
      pose proof Hga as (Hv & _ & u & w & _ & _ & e1 & e2 & e3 & c1 & c2 & c3 & q & _ & _ & _ & _ & _ & _ & Hpq & _).
      unfold prize_of. rewrite (vget_some _ _ _ Hpq). cbn [bind].
      assert (Hz1 : tour_prize p (firstn (S i) t ++ v :: skipn (S i) t) (q + prize)).
      { apply insert_prize with r; auto.
        - now rewrite firstn_skipn.
        - rewrite firstn_length. lia.
        - intros E0. apply (f_equal (@length nat)) in E0. rewrite skipn_length in E0. simpl in E0. lia.
        - now rewrite firstn_skipn. }
      assert (Hb : (- (int_max) <= q + prize <= int_max)%Z).
      { unfold tour_prize in Hz1. destruct Hp as [_ Hpf].
        pose proof (prize_sum_bounds p _ _ (- P) P Hpf Hz1) as Hb.
        set (L := length (removelast (firstn (S i) t ++ v :: skipn (S i) t))) in *.
        assert (HL : L <= S (gn g)).
        { unfold L. destruct Hc1 as (vs & Ec1 & _). rewrite Ec1, removelast_cons_snoc.
          rewrite Ec1 in Hk1. cbn [length] in *. rewrite app_length in Hk1. cbn [length] in Hk1. lia. }
        assert (Z.of_nat L * P <= Z.of_nat (S (gn g)) * P)%Z by (apply Z.mul_le_mono_nonneg_r; lia).
        lia. }
      rewrite chk_ok by (unfold int_min, int_max in *; lia). cbn [bind].
      replace (prize + q)%Z with (q + prize)%Z by lia.
      assert (Hatt' : S attempts <=? num_vertices g = true).
      { apply Nat.leb_le. unfold num_vertices. lia. }
      rewrite Hatt'.
      destruct (IH (firstn (S i) t ++ v :: skipn (S i) t) (v :: in_tour) m' (q + prize)%Z (S attempts) true Hc1
                    (in_tour_insert t v i in_tour Hin) Hz1 ltac:(lia) ltac:(discriminate) ltac:(cbn iota in *; lia))
        as (t' & k & E' & Hs & Hst).
      exists t', (S k). split; [exact E'|]. split; [|auto].
      eapply gain_steps_cons; eauto.
Qed.

Lemma extension_until_ok r t quota : closed_tour g r 1 t ->
  exists t' k, extension_until_prize_feasible g t c p quota = Ok t' /\
    gain_steps g c p (fun s _ => exists z, tour_prize p s z /\ (z < quota)%Z) k t t' /\
    ((exists z, tour_prize p t' z /\ (quota <= z)%Z) \/
     (forall v i x, gain_at g c p t' v i x -> f_lt f_zero x = false)) /\
    closed_tour g r 1 t' /\ (t' = t \/ closed_tour g r 2 t') /\ subseq t t' /\
    length t' = k + length t /\ k + length t <= S (gn g).
Proof.
  intros Ht. unfold extension_until_prize_feasible, num_vertices.
  destruct (closed_len g r 1 t Ht) as (k0 & Hk & Hk1 & Hkn & _).
  destruct (closed_ne r 1 t Ht) as (Hne & Hw & Hf). destruct Hp as [Hpl Hpf].
  destruct (total_prize_of_tour_ok p P t Hpf) as (z & Ez & Hz); auto.
  { now rewrite Hpl. }
  { assert (Z.of_nat (length t) * P <= Z.of_nat (S (gn g)) * P)%Z by (apply Z.mul_le_mono_nonneg_r; lia).
    lia. }
  rewrite Ez. cbn [bind].
  destruct (until_gain_loop_ok r quota (S (S (gn g))) t t [] z 0 true Ht) as (t' & k & E & Hs & Hst);
    [tauto|auto|lia|discriminate|lia|].
  destruct (gain_steps_closed _ r k t t' Ht Hs) as (A1 & A2 & A3 & A4).
  destruct (closed_len g r 1 t' A1) as (k1 & Hk1' & _ & Hn & _).
  exists t', k. repeat (split; [now auto|]). lia.
Qed.

End Gain.

(** ** complete graphs with the triangle inequality *)
Lemma stuck_complete g c p C r t : costs_within g c (- C) C -> (3 * C <= int_max)%Z ->
  (length p = gn g /\ Forall (fun x => 1 <= x <= int_max)%Z p) ->
  (forall u v, u < gn g -> v < gn g -> u <> v -> is_edge g u v) ->
  (forall u v w e1 e2 e3 c1 c2 c3, step_edge g u v e1 -> step_edge g v w e2 -> step_edge g u w e3 ->
     nth_error c e1 = Some c1 -> nth_error c e2 = Some c2 -> nth_error c e3 = Some c3 ->
     (c3 <= c1 + c2)%Z) ->
  closed_tour g r 1 t ->
  (forall v i x, gain_at g c p t v i x -> f_lt f_zero x = false) ->
  forall v, v < gn g -> In v t.
Proof.
  intros Hc H3C [Hpl Hpf] Hcomp Htri Ht Hst v Hv.
  destruct (in_dec Nat.eq_dec v t) as [H|Hn]; auto. exfalso.
  destruct Ht as (vs & Et & Hnd & Hm & Hw & Hf).
  destruct vs as [|a vs]; [simpl in Hm; lia|].
  assert (Hr : r < gn g) by (rewrite Forall_forall in Hf; apply Hf; rewrite Et; now left).
  assert (Ha : a < gn g) by (rewrite Forall_forall in Hf; apply Hf; rewrite Et; right; now left).
  assert (Hrv : r <> v) by (intros ->; apply Hn; rewrite Et; now left).
  assert (Hav : a <> v) by (intros ->; apply Hn; rewrite Et; right; now left).
  assert (Hra : r <> a) by (intros ->; inversion Hnd as [|? ? Hx _]; apply Hx; now left).
  destruct (step_edge_exists g r v (Hcomp r v Hr Hv Hrv)) as [e1 S1].
  destruct (step_edge_exists g v a (Hcomp v a Hv Ha (not_eq_sym Hav))) as [e2 S2].
  destruct (step_edge_exists g r a (Hcomp r a Hr Ha Hra)) as [e3 S3].
  destruct (cost_some g c C Hc _ _ _ S1) as (c1 & E1 & B1).
  destruct (cost_some g c C Hc _ _ _ S2) as (c2 & E2 & B2).
  destruct (cost_some g c C Hc _ _ _ S3) as (c3 & E3 & B3).
  destruct (nth_error p v) as [q|] eqn:Eq; [|apply nth_error_None in Eq; lia].
  pose proof (nth_error_In _ _ Eq) as Hq. rewrite Forall_forall in Hpf. apply Hpf in Hq.
  pose proof (Htri _ _ _ _ _ _ _ _ _ S1 S2 S3 E1 E2 E3) as Hle.
  assert (Hga : gain_at g c p t v 0 (f_div (f_of_int q) (f_of_int (c1 + c2 - c3)))).
  { split; [auto|]. split; [auto|]. exists r, a. rewrite Et. split; [reflexivity|]. split; [reflexivity|].
    exists e1, e2, e3, c1, c2, c3, q. tauto. }
  apply Hst in Hga. unfold int_max in *. rewrite f_div_int_pos in Hga; [discriminate|lia|lia].
Qed.

Lemma until_complete g c p C P r t quota z : costs_within g c (- C) C ->
  (3 * C <= int_max)%Z -> prizes_within g p 1 P -> (Z.of_nat (S (gn g)) * P <= int_max)%Z ->
  (forall u v, u < gn g -> v < gn g -> u <> v -> is_edge g u v) ->
  (forall u v w e1 e2 e3 c1 c2 c3, step_edge g u v e1 -> step_edge g v w e2 -> step_edge g u w e3 ->
     nth_error c e1 = Some c1 -> nth_error c e2 = Some c2 -> nth_error c e3 = Some c3 ->
     (c3 <= c1 + c2)%Z) ->
  closed_tour g r 1 t -> prize_sum p (seq 0 (gn g)) z -> (quota <= z)%Z ->
  exists t' z', extension_until_prize_feasible g t c p quota = Ok t' /\ closed_tour g r 1 t' /\
    tour_prize p t' z' /\ (quota <= z')%Z.
Proof.
  intros Hc H3C Hp HLP Hcomp Htri Ht Hz Hq.
  assert (HP : (1 <= P)%Z).
  { destruct (closed_len g r 1 t Ht) as (k & _ & Hk & Hkn & _). destruct Hp as [Hl Hf].
    destruct p as [|x p']; [simpl in Hl; lia|]. inversion Hf; subst. lia. }
  assert (Hp' : prizes_within g p (- P) P).
  { destruct Hp as [Hl Hf]. split; auto. eapply Forall_impl; [|exact Hf]. simpl. lia. }
  destruct (extension_until_ok g c p C P Hc Hp' H3C ltac:(lia) HLP r t quota Ht)
    as (t' & k & E & Hs & Hst & H1 & _).
  exists t'. destruct Hst as [(z' & Hz' & L)|Hst]; [exists z'; auto|].
  assert (Hall : forall v, v < gn g -> In v t').
  { apply (stuck_complete g c p C r t' Hc H3C); auto. destruct Hp as [Hl Hf]. split; auto.
    eapply Forall_impl; [|exact Hf]. cbn beta. intros x Hx. unfold int_max in *. nia. }
  exists z. split; [auto|]. split; [auto|]. split; [|auto].
  unfold tour_prize. destruct H1 as (vs & Et & Hnd & Hm & Hw & Hf).
  rewrite Et in Hall, Hf |- *. rewrite removelast_cons_snoc.
  apply prize_sum_perm with (seq 0 (gn g)); auto. apply NoDup_Permutation; auto.
  - apply seq_NoDup.
  - intros x. rewrite in_seq. rewrite Forall_forall in Hf. split.
    + intros Hx. specialize (Hall x ltac:(lia)). cbn [In] in *. rewrite in_app_iff in Hall.
      cbn [In] in Hall. tauto.
    + intros Hx. split; [lia|]. apply Hf. cbn [In] in *. rewrite in_app_iff. tauto.
Qed.

(** ** tours that are not walks *)
Section NOWALK.
Context (g : graph) (c p : list Z) (C P : Z).
Context (Hc : costs_within g c (- C) C) (Hp : prizes_within g p (- P) P).
Context (H3C : (3 * C <= int_max)%Z).

Lemma gain_loop_throws q v : v < gn g -> forall rest u i b, Forall (fun x => x < gn g) (u :: rest) ->
  ~ is_walk g (u :: rest) -> gain_loop g c q v u rest i b = Throw InvalidArgument.
Proof.
  intros Hv. induction rest as [|w rest IH]; intros u i b Hf Hn; cbn [gain_loop].
  - exfalso. apply Hn. constructor.
  - apply Forall_cons_iff in Hf as [Hu Hf]. pose proof Hf as Hf'. apply Forall_cons_iff in Hf' as [Hw _].
    destruct (edge_total g u v Hu) as [uv Euv], (edge_total g v w Hv) as [vw Evw], (edge_total g u w Hu) as [uw Euw].
    rewrite Euv, Evw, Euw. cbn [bind]. destruct uw as [e3|]; [|reflexivity].
    assert (Hg : exists b', gain_try c q i uv vw e3 b = Ok b').
    { unfold gain_try. destruct uv as [e1|]; [|eauto]. destruct vw as [e2|]; [|eauto].
      apply edge_Some in Euv, Evw, Euw.
      destruct (cost_some g c C Hc u v e1 Euv) as (c1 & E1 & B1), (cost_some g c C Hc v w e2 Evw) as (c2 & E2 & B2),
        (cost_some g c C Hc u w e3 Euw) as (c3 & E3 & B3).
      unfold cost_of, vget. rewrite E1, E2, E3. cbn [bind].
      rewrite (unitary_gain_ok C H3C q c3 c1 c2 B3 B1 B2). cbn [bind]. eauto. }
    destruct Hg as [b' ->]. cbn [bind]. apply IH; auto.
    intros Hwk. apply Hn. constructor; auto. apply edge_Some in Euw. exists e3. apply Euw.
Qed.

Lemma find_throws t in_tour : t <> [] -> Forall (fun x => x < gn g) t -> ~ is_walk g t ->
  forall vs m b, Forall (fun x => x < gn g) vs -> (exists v, In v vs /\ ~ In v in_tour) ->
  foldM (find_gain_step g t c p in_tour) vs (m, b) = Throw InvalidArgument.
Proof.
  intros Hne Hf Hn. induction vs as [|v vs IH]; intros m b Hvs (x & Hx & Hnx); [destruct Hx|].
  apply Forall_cons_iff in Hvs as [Hv Hvs]. cbn [foldM]. unfold find_gain_step at 1.
  destruct (memb v in_tour) eqn:E.
  - cbn [bind]. apply IH; auto. exists x. split; auto. destruct Hx as [->|]; auto. now apply memb_In in E.
  - destruct t as [|u rest]; [congruence|]. cbn [unitary_gain_of_vertex].
    destruct Hp as [Hl _]. unfold prize_of, vget. destruct (nth_error p v) as [q|] eqn:Eq.
    + cbn [bind]. rewrite gain_loop_throws; auto.
    + apply nth_error_None in Eq. lia.
Qed.

Lemma gain_not_walk t : t <> [] -> Forall (fun x => x < gn g) t -> ~ is_walk g t ->
  (exists v, v < gn g /\ ~ In v t) ->
  extension_unitary_gain g t c p = Throw InvalidArgument /\
  forall quota z, total_prize_of_tour p t = Ok z -> (z < quota)%Z ->
    extension_until_prize_feasible g t c p quota = Throw InvalidArgument.
Proof.
  intros Hne Hf Hn (v & Hv & Hnv).
  assert (H : find_vertex_with_biggest_gain g t c p [] t = Throw InvalidArgument).
  { unfold find_vertex_with_biggest_gain. rewrite find_throws; auto.
    - apply Forall_forall. intros x Hx. apply in_seq in Hx. lia.
    - exists v. split; auto. apply in_seq. lia. }
  split.
  - unfold extension_unitary_gain. cbn [unitary_gain_loop]. now rewrite H.
  - intros quota z Ez Hq. unfold extension_until_prize_feasible. rewrite Ez. cbn [bind until_gain_loop].
    destruct (Z.ltb_spec z quota); [|lia]. cbn [andb]. now rewrite H.
Qed.
End NOWALK.
