(** * P_Choose: choosing an extension, sub-paths of a cycle, swapping paths. *)
From Verif Require Import Base Graph Spec M_Float M_Walk M_Graph M_Extension P_Base P_Walk P_Float.
Open Scope Z_scope.

(** The unitary loss of replacing [internal] by [cand] (exact differences, then one float
    division). *)
Definition loss_of (g : graph) (c p : list Z) (internal cand : list nat) (l : float32) : Prop :=
  exists ip ep ic ec, prize_sum p internal ip /\ prize_sum p cand ep /\ ip < ep /\
    walk_cost g c internal ic /\ walk_cost g c cand ec /\
    l = f_div (f_of_int (ec - ic)) (f_of_int (ep - ip)).

Lemma loss_of_fun g c p i d l l' : loss_of g c p i d l -> loss_of g c p i d l' -> l = l'.
Proof.
  intros (ip & ep & ic & ec & A1 & A2 & _ & A3 & A4 & ->) (ip' & ep' & ic' & ec' & B1 & B2 & _ & B3 & B4 & ->).
  rewrite (prize_sum_fun _ _ _ _ A1 B1), (prize_sum_fun _ _ _ _ A2 B2),
    (walk_cost_fun _ _ _ _ _ A3 B3), (walk_cost_fun _ _ _ _ _ A4 B4). reflexivity.
Qed.

Lemma loss_of_increases g c p i d l : loss_of g c p i d l -> increases_prize p i d.
Proof. intros (ip & ep & ic & ec & A1 & A2 & A3 & _). exists ip, ep. auto. Qed.

Section Choose.
Context (g : graph) (c p : list Z) (internal : list nat) (C P : Z) (L : nat).
Context (Hc : costs_within g c (- C) C) (Hp : prizes_within g p (- P) P).
Context (HC : 0 <= C) (HP : 0 <= P).
Context (HLC : 2 * (Z.of_nat L * C) <= int_max) (HLP : 2 * (Z.of_nat L * P) <= int_max).

(** a path within the size bound *)
Definition fits (w : list nat) : Prop :=
  is_walk g w /\ Forall (fun v => (v < gn g)%nat) w /\ (length w <= L)%nat.

Lemma fits_vals w : fits w -> exists pz cz,
  total_prize p w = Ok pz /\ prize_sum p w pz /\ total_cost g c w = Ok cz /\ walk_cost g c w cz /\
  2 * Z.abs pz <= int_max /\ 2 * Z.abs cz <= int_max.
Proof.
  intros (Hw & Hf & Hl). destruct Hp as [Hlp Hpf].
  assert (A1 : Z.of_nat (length w) * C <= Z.of_nat L * C) by (apply Z.mul_le_mono_nonneg_r; lia).
  assert (A2 : Z.of_nat (length w) * P <= Z.of_nat L * P) by (apply Z.mul_le_mono_nonneg_r; lia).
  assert (A3 : 0 <= Z.of_nat (length w) * C) by (apply Z.mul_nonneg_nonneg; lia).
  assert (A4 : 0 <= Z.of_nat (length w) * P) by (apply Z.mul_nonneg_nonneg; lia).
  destruct (total_prize_ok p P w Hpf) as (pz & E1 & H1); [now rewrite Hlp|lia|].
  destruct (total_cost_ok g c w C Hc Hf Hw) as (cz & E2 & H2); [lia|].
  exists pz, cz. repeat split; auto.
  - pose proof (prize_sum_bounds p w pz (-P) P Hpf H1). lia.
  - pose proof (walk_cost_bounds g c w cz (-C) C Hc H2) as B.
    assert (C * Z.of_nat (length w - 1) <= C * Z.of_nat (length w))
      by (apply Z.mul_le_mono_nonneg_l; lia).
    lia.
Qed.

Lemma loss_not_nan cand l : fits internal -> fits cand -> loss_of g c p internal cand l -> not_nan l.
Proof.
  intros H1 H2 (ip & ep & ic & ec & A1 & A2 & A3 & A4 & A5 & ->).
  destruct (fits_vals _ H1) as (pz & cz & _ & P1 & _ & C1 & Bp1 & Bc1).
  destruct (fits_vals _ H2) as (pz' & cz' & _ & P2 & _ & C2 & Bp2 & Bc2).
  assert (pz = ip) by (eapply prize_sum_fun; eauto).
  assert (pz' = ep) by (eapply prize_sum_fun; eauto).
  assert (cz = ic) by (eapply walk_cost_fun; eauto).
  assert (cz' = ec) by (eapply walk_cost_fun; eauto). subst.
  assert (F : is_fin false (f_of_int (ep - ip))) by (apply f_of_int_pos; unfold int_max in *; lia).
  apply f_div_not_nan with (s := false); auto.
  - apply f_of_int_not_nan.
  - destruct (Z.eq_dec (ec - ic) 0) as [E|E]; [rewrite E; discriminate|].
    destruct (Z_lt_le_dec 0 (ec - ic)).
    + destruct (f_of_int_pos (ec - ic)) as (m & e & ->); [unfold int_max in *; lia|discriminate].
    + destruct (f_of_int_neg (ec - ic)) as (m & e & ->); [unfold int_max in *; lia|discriminate].
  - destruct (Z.eq_dec (ec - ic) 0) as [E|E]; [rewrite E; discriminate|].
    destruct (Z_lt_le_dec 0 (ec - ic)).
    + destruct (f_of_int_pos (ec - ic)) as (m & e & ->); [unfold int_max in *; lia|discriminate].
    + destruct (f_of_int_neg (ec - ic)) as (m & e & ->); [unfold int_max in *; lia|discriminate].
Qed.

(** what has been chosen among [done] *)
Definition chosen (done : list (list nat)) (best : option (nat * float32)) : Prop :=
  match best with
  | None => forall cand, In cand done -> ~ increases_prize p internal cand
  | Some (idx, l) =>
      exists cand, nth_error done idx = Some cand /\ loss_of g c p internal cand l /\
      forall i cand' l', nth_error done i = Some cand' -> loss_of g c p internal cand' l' ->
        f_lt l' l = false /\ ((i < idx)%nat -> f_lt l l' = true)
  end.

Lemma choose_ok cands : fits internal -> Forall fits cands ->
  exists best, choose_extension g c p cands internal = Ok best /\ chosen cands best.
Proof.
  intros Hi Hcs. unfold choose_extension.
  destruct (foldM_inv (choose_step g c p internal)
    (fun done st => snd st = length done /\ chosen done (fst st)) cands (None, 0%nat))
    as (st & E & _ & Hst).
  - split; auto. intros cand [].
  - intros done x rest [best idx] El [Hidx Hch]. cbn [fst snd] in *. subst idx.
    assert (Hx : fits x).
    { rewrite Forall_forall in Hcs. apply Hcs. rewrite El. apply in_app_iff. simpl; auto. }
    destruct (fits_vals _ Hi) as (ip & ic & Eip & Hip & Eic & Hic & Bip & Bic).
    destruct (fits_vals _ Hx) as (ep & ec & Eep & Hep & Eec & Hec & Bep & Bec).
    unfold choose_step. rewrite Eip, Eep. cbn [bind].
    rewrite (chk_ok (ep - ip)) by (unfold int_min, int_max in *; lia). cbn [bind].
    rewrite f_pos_int by (unfold int_min, int_max in *; lia).
    destruct (Z.ltb_spec 0 (ep - ip)) as [Hlt|Hge].
    + rewrite Eec, Eic. cbn [bind]. unfold unitary_loss.
      rewrite !chk_ok by (unfold int_min, int_max in *; lia). cbn [bind].
      set (loss := f_div (f_of_int (ec - ic)) (f_of_int (ep - ip))).
      assert (Hloss : loss_of g c p internal x loss).
      { exists ip, ep, ic, ec. repeat split; auto. lia. }
      eexists. split; [reflexivity|]. cbn [fst snd].
      split; [rewrite app_length; simpl; lia|].
      assert (Hnth : nth_error (done ++ [x]) (length done) = Some x).
      { rewrite nth_error_app2, Nat.sub_diag by lia. reflexivity. }
      destruct best as [[bi bl]|].
      * cbn [chosen] in Hch. destruct Hch as (bc & Hb1 & Hb2 & Hb3).
        assert (Hbf : fits bc).
        { rewrite Forall_forall in Hcs. apply Hcs. rewrite El. apply in_app_iff. left.
          eapply nth_error_In; eauto. }
        pose proof (nth_error_Some_lt _ _ _ Hb1) as Hbi.
        destruct (f_lt loss bl) eqn:Elt.
        -- exists x. split; [auto|]. split; [auto|].
           intros i cand' l' Hn Hl'.
           destruct (lt_eq_lt_dec i (length done)) as [[Hi'|Hi']|Hi'].
           ++ rewrite nth_error_app1 in Hn by auto.
              destruct (Hb3 i cand' l' Hn Hl') as [K1 K2].
              assert (Hl'n : not_nan l').
              { apply loss_not_nan with (cand := cand'); auto. rewrite Forall_forall in Hcs. apply Hcs.
                rewrite El. apply in_app_iff. left. eapply nth_error_In; eauto. }
              assert (Hbn : not_nan bl) by (apply loss_not_nan with (cand := bc); auto).
              assert (Hln : not_nan loss) by (apply loss_not_nan with (cand := x); auto).
              assert (Hll : f_lt loss l' = true).
              { destruct (f_lt loss l') eqn:E2; auto. exfalso.
                pose proof (f_lt_ntrans loss l' bl Hln Hl'n Hbn E2 K1). congruence. }
              split; [now apply f_lt_asym|auto].
           ++ subst i. rewrite Hnth in Hn. inversion Hn; subst cand'.
              assert (l' = loss) by (eapply loss_of_fun; eauto). subst l'.
              split; [apply f_lt_irrefl|lia].
           ++ apply nth_error_Some_lt in Hn. rewrite app_length in Hn. simpl in Hn. lia.
        -- exists bc. rewrite nth_error_app1 by auto. split; [auto|]. split; [auto|].
           intros i cand' l' Hn Hl'.
           destruct (lt_eq_lt_dec i (length done)) as [[Hi'|Hi']|Hi'].
           ++ rewrite nth_error_app1 in Hn by auto. eauto.
           ++ subst i. rewrite Hnth in Hn. inversion Hn; subst cand'.
              assert (l' = loss) by (eapply loss_of_fun; eauto). subst l'.
              split; [auto|lia].
           ++ apply nth_error_Some_lt in Hn. rewrite app_length in Hn. simpl in Hn. lia.
      * cbn [chosen] in Hch. exists x. split; [auto|]. split; [auto|].
        intros i cand' l' Hn Hl'.
        destruct (lt_eq_lt_dec i (length done)) as [[Hi'|Hi']|Hi'].
        -- rewrite nth_error_app1 in Hn by auto. exfalso.
           apply (Hch cand'); [eapply nth_error_In; eauto|]. eapply loss_of_increases; eauto.
        -- subst i. rewrite Hnth in Hn. inversion Hn; subst cand'.
           assert (l' = loss) by (eapply loss_of_fun; eauto). subst l'.
           split; [apply f_lt_irrefl|lia].
        -- apply nth_error_Some_lt in Hn. rewrite app_length in Hn. simpl in Hn. lia.
    + eexists. split; [reflexivity|]. cbn [fst snd].
      split; [rewrite app_length; simpl; lia|].
      assert (Hni : ~ increases_prize p internal x).
      { intros (ip' & ep' & Q1 & Q2 & Q3).
        rewrite (prize_sum_fun _ _ _ _ Q1 Hip), (prize_sum_fun _ _ _ _ Q2 Hep) in Q3. lia. }
      destruct best as [[bi bl]|]; cbn [chosen] in *.
      * destruct Hch as (bc & Hb1 & Hb2 & Hb3). exists bc.
        rewrite nth_error_app1 by (eapply nth_error_Some_lt; eauto).
        split; [auto|]. split; [auto|]. intros i cand' l' Hn Hl'.
        destruct (le_lt_dec (length done) i) as [Hi'|Hi'].
        -- rewrite nth_error_app2 in Hn by auto. destruct (i - length done)%nat as [|k]; simpl in Hn.
           ++ inversion Hn; subst. exfalso. apply Hni. eapply loss_of_increases; eauto.
           ++ destruct k; discriminate.
        -- rewrite nth_error_app1 in Hn by auto. eauto.
      * intros cand Hin. apply in_app_iff in Hin as [Hin|[->|[]]]; auto.
  - rewrite E. cbn [bind]. exists (fst st). auto.
Qed.
End Choose.

(** ** indexOfSmallestLoss *)
Definition smallest (l : list (option (float32 * list nat))) (best : option (nat * (float32 * list nat))) : Prop :=
  match best with
  | None => forall i, nth_error l i <> None -> nth_error l i = Some None
  | Some (idx, (x, pa)) =>
      nth_error l idx = Some (Some (x, pa)) /\
      forall i y pb, nth_error l i = Some (Some (y, pb)) ->
        f_lt y x = false /\ ((i < idx)%nat -> f_lt x y = true)
  end.

Lemma index_of_smallest_loss_from_ok l : forall done best,
  smallest done best ->
  (forall y pb, In (Some (y, pb)) (done ++ l) -> not_nan y) ->
  smallest (done ++ l) (index_of_smallest_loss_from l (length done) best).
Proof.
  induction l as [|o t IH]; intros done best Hs Hnn.
  - rewrite app_nil_r. exact Hs.
  - replace (done ++ o :: t) with ((done ++ [o]) ++ t) in * by (rewrite <- app_assoc; reflexivity).
    assert (Hlen : length (done ++ [o]) = S (length done)) by (rewrite app_length; simpl; lia).
    assert (Hlast : nth_error (done ++ [o]) (length done) = Some o).
    { rewrite nth_error_app2, Nat.sub_diag by lia. reflexivity. }
    assert (Hcase : forall i a, nth_error (done ++ [o]) i = Some a ->
              nth_error done i = Some a \/ (i = length done /\ a = o)).
    { intros i a Hi. destruct (lt_eq_lt_dec i (length done)) as [[H|H]|H].
      - rewrite nth_error_app1 in Hi by auto. auto.
      - subst. rewrite Hlast in Hi. inversion Hi. auto.
      - apply nth_error_Some_lt in Hi. lia. }
    destruct o as [[x pa]|]; cbn [index_of_smallest_loss_from]; rewrite <- Hlen; apply IH; auto.
    + destruct best as [[bi [b pb]]|]; cbn [smallest] in Hs.
      * destruct Hs as [H1 H2]. pose proof (nth_error_Some_lt _ _ _ H1) as Hbi.
        assert (Nb : not_nan b).
        { apply (Hnn b pb). rewrite !in_app_iff. left; left. eapply nth_error_In; eauto. }
        assert (Nx : not_nan x) by (apply (Hnn x pa); rewrite !in_app_iff; simpl; auto).
        destruct (f_lt x b) eqn:E; cbn [smallest].
        -- split; [auto|]. intros i y pc Hi. destruct (Hcase _ _ Hi) as [Hd|[-> Ho]].
           ++ destruct (H2 _ _ _ Hd) as [K1 K2].
              assert (Ny : not_nan y).
              { apply (Hnn y pc). rewrite !in_app_iff. left; left. eapply nth_error_In; eauto. }
              assert (Hxy : f_lt x y = true).
              { destruct (f_lt x y) eqn:E2; auto.
                pose proof (f_lt_ntrans x y b Nx Ny Nb E2 K1). congruence. }
              split; auto. now apply f_lt_asym.
           ++ inversion Ho; subst. split; [apply f_lt_irrefl|lia].
        -- rewrite nth_error_app1 by auto. split; [auto|]. intros i y pc Hi.
           destruct (Hcase _ _ Hi) as [Hd|[-> Ho]]; eauto.
           inversion Ho; subst. split; [auto|lia].
      * cbn [smallest]. split; [auto|]. intros i y pc Hi.
        destruct (Hcase _ _ Hi) as [Hd|[-> Ho]].
        -- exfalso. specialize (Hs i). rewrite Hd in Hs. specialize (Hs ltac:(discriminate)). discriminate.
        -- inversion Ho; subst. split; [apply f_lt_irrefl|lia].
    + destruct best as [[bi [b pb]]|]; cbn [smallest] in *.
      * destruct Hs as [H1 H2]. rewrite nth_error_app1 by (eapply nth_error_Some_lt; eauto).
        split; [auto|]. intros i y pc Hi. destruct (Hcase _ _ Hi) as [Hd|[-> Ho]]; eauto. discriminate.
      * intros i Hi. destruct (nth_error (done ++ [None]) i) as [a|] eqn:Ei; [|congruence].
        destruct (Hcase _ _ Ei) as [Hd|[-> Ho]]; [|now subst].
        specialize (Hs i). rewrite Hd in Hs. apply Hs. discriminate.
Qed.

Lemma index_of_smallest_loss_ok l :
  (forall y pb, In (Some (y, pb)) l -> not_nan y) -> smallest l (index_of_smallest_loss l).
Proof.
  intros H. apply (index_of_smallest_loss_from_ok l [] None); auto.
  intros i Hi. destruct i; simpl in Hi; congruence.
Qed.

(** without any assumption on NaN: the index names an entry that is there *)
Lemma index_of_smallest_loss_nth l idx x : index_of_smallest_loss l = Some (idx, x) ->
  nth_error l idx = Some (Some x).
Proof.
  unfold index_of_smallest_loss.
  assert (G : forall t done best, (forall i y, best = Some (i, y) -> nth_error (done ++ t) i = Some (Some y)) ->
     forall i y, index_of_smallest_loss_from t (length done) best = Some (i, y) ->
       nth_error (done ++ t) i = Some (Some y)).
  { induction t as [|o t IH]; intros done best Hb i y H; cbn [index_of_smallest_loss_from] in H.
    - auto.
    - assert (Hlen : length (done ++ [o]) = S (length done)) by (rewrite app_length; simpl; lia).
      assert (Ea : done ++ o :: t = (done ++ [o]) ++ t) by (rewrite <- app_assoc; reflexivity).
      rewrite Ea in *. rewrite <- Hlen in H.
      destruct o as [[z pa]|]; [|eapply IH; eauto].
      eapply IH; [|exact H].
      intros i' y' E. destruct (match best with Some (_, (b, _)) => f_lt z b | None => true end); auto.
      inversion E; subst. rewrite <- Ea, nth_error_app2, Nat.sub_diag by lia. reflexivity. }
  intros H. apply (G l [] None) in H; auto. discriminate.
Qed.

Lemma index_of_smallest_loss_none l : index_of_smallest_loss l = None ->
  num_feasible l = 0%nat.
Proof.
  unfold index_of_smallest_loss, num_feasible.
  assert (G : forall t k best, index_of_smallest_loss_from t k best = None ->
     best = None /\ length (filter (fun o : option (float32 * list nat) =>
        match o with Some _ => true | None => false end) t) = 0%nat).
  { induction t as [|o t IH]; intros k best H; cbn [index_of_smallest_loss_from] in H; auto.
    destruct o as [[z pa]|]; cbn [filter].
    - apply IH in H as [H _]. destruct best as [[bi [b pb]]|]; [destruct (f_lt z b)|]; discriminate.
    - eapply IH; eauto. }
  intros H. apply (G l 0%nat None H).
Qed.

(** ** getSubpathOfCycle *)
Open Scope nat_scope.

Lemma subpath_loop_ok t k : length t = S k -> 1 <= k -> nth_error t k = nth_error t 0 ->
  forall len cur, cur <= S k ->
  exists r, subpath_loop t len cur = Ok r /\ length r = len /\
    forall m, m < len -> nth_error r m = nth_error t ((cur + m) mod k).
Proof.
  intros Hl Hk Hcl. induction len as [|len IH]; intros cur Hcur; cbn [subpath_loop].
  - exists []. repeat split; auto. intros m Hm. lia.
  - rewrite Hl.
    set (cur' := if cur =? S k then 1 else cur).
    assert (Hcur' : cur' <= k) by (unfold cur'; destruct (Nat.eqb_spec cur (S k)); lia).
    assert (Hmod : forall m, (cur' + m) mod k = (cur + m) mod k).
    { intros m. unfold cur'. destruct (Nat.eqb_spec cur (S k)) as [->|]; auto.
      replace (S k + m) with ((1 + m) + 1 * k) by lia. now rewrite Nat.mod_add by lia. }
    destruct (nth_error t cur') as [v|] eqn:Ev; [|apply nth_error_None in Ev; lia].
    rewrite (it_get_some _ _ _ Ev). cbn [bind].
    destruct (IH (S cur') ltac:(lia)) as (r & E & Hr & Hn). rewrite E. cbn [bind].
    exists (v :: r). split; [auto|]. split; [simpl; auto|].
    intros [|m] Hm; cbn [nth_error].
    + rewrite <- Ev, <- Hmod, Nat.add_0_r.
      destruct (Nat.eq_dec cur' k) as [->|Hne].
      * rewrite Nat.mod_same by lia. auto.
      * rewrite Nat.mod_small by lia. auto.
    + rewrite Hn by lia. rewrite <- (Hmod (S m)). f_equal. f_equal. lia.
Qed.

Lemma mod_sub_wrap a k : 0 < k -> k <= a < 2 * k -> a mod k = a - k.
Proof.
  intros. replace a with ((a - k) + 1 * k) at 1 by lia. rewrite Nat.mod_add by lia.
  apply Nat.mod_small. lia.
Qed.

Lemma get_subpath_ok t k i j : length t = S k -> 1 <= k -> nth_error t k = nth_error t 0 ->
  i < k -> j < k ->
  exists r, get_subpath_of_cycle t i j = Ok r /\
    length r = S ((j + k - i) mod k) /\
    forall m, m < length r -> nth_error r m = nth_error t ((i + m) mod k).
Proof.
  intros Hl Hk Hcl Hi Hj. unfold get_subpath_of_cycle.
  set (len := if (Z.of_nat j - Z.of_nat i + 1 <=? 0)%Z
              then (Z.of_nat (length t) - Z.of_nat i + Z.of_nat j)%Z
              else (Z.of_nat j - Z.of_nat i + 1)%Z).
  assert (Hlen : len = Z.of_nat (S ((j + k - i) mod k))).
  { unfold len. rewrite Hl. destruct (Z.leb_spec (Z.of_nat j - Z.of_nat i + 1) 0) as [H|H].
    - rewrite Nat.mod_small by lia. lia.
    - rewrite (mod_sub_wrap _) by lia. lia. }
  rewrite Hlen. destruct (Z.ltb_spec (Z.of_nat (S ((j + k - i) mod k))) 0) as [H|_]; [lia|].
  destruct (Nat.ltb_spec (length t) i) as [H|_]; [lia|].
  rewrite Nat2Z.id.
  destruct (subpath_loop_ok t k Hl Hk Hcl (S ((j + k - i) mod k)) i ltac:(lia)) as (r & E & H1 & H2).
  exists r. rewrite H1. auto.
Qed.

(** ** swapPathsInTour *)
Lemma swap_forward A x M y B path :
  swap_paths_in_tour (A ++ x :: M ++ y :: B) path (length A) (length A + S (length M))
  = Ok (A ++ path ++ B).
Proof.
  unfold swap_paths_in_tour.
  destruct (Nat.ltb_spec (length A) (length A + S (length M))) as [_|H]; [|lia].
  rewrite app_length. cbn [length]. rewrite app_length. cbn [length].
  match goal with |- context [if ?a <? ?b then _ else _] => destruct (Nat.ltb_spec a b) as [_|H]; [|lia] end.
  rewrite firstn_app, Nat.sub_diag, firstn_all. cbn [firstn]. rewrite app_nil_r.
  f_equal. f_equal. f_equal.
  replace (A ++ x :: M ++ y :: B) with ((A ++ x :: M ++ [y]) ++ B)
    by (rewrite <- app_assoc; cbn [app]; rewrite <- app_assoc; reflexivity).
  rewrite skipn_app.
  rewrite skipn_all2 by (rewrite app_length; cbn [length]; rewrite app_length; simpl; lia).
  cbn [app].
  match goal with |- skipn ?n B = B => replace n with 0; [reflexivity|] end.
  rewrite app_length; cbn [length]; rewrite app_length; cbn [length]; lia.
Qed.

(** the wrap-around branch: positions [l < f], the tour from [f] over its end to [l] is
    replaced; the new path must contain the tour's first vertex *)
Lemma swap_backward r A' B x M (a b : list nat) :
  (* tour: r :: A' ++ x :: M with the path x..(end = r)..position l *)
  forall l, l < S (length A') -> B = skipn (S l) (r :: A') -> ~ In r a ->
  swap_paths_in_tour ((r :: A') ++ x :: M) (a ++ r :: b) (S (length A')) l
  = Ok ((r :: b) ++ B ++ a ++ [r]).
Proof.
  intros l Hl -> Ha. unfold swap_paths_in_tour.
  destruct (Nat.ltb_spec (S (length A')) l) as [H|_]; [lia|].
  cbn [app]. rewrite app_comm_cons.
  rewrite app_length. cbn [length].
  match goal with |- context [if ?a <? ?b then _ else _] => destruct (Nat.ltb_spec a b) as [H|_]; [lia|] end.
  rewrite firstn_app. cbn [length]. rewrite Nat.sub_diag. rewrite firstn_O.
  change (S (length A')) with (length (r :: A')) at 1 2. rewrite firstn_all, app_nil_r. cbn [length].
  destruct (Nat.ltb_spec l (S (length A'))) as [_|H]; [|lia].
  rewrite find_pos_app_notin by auto. cbn [find_pos]. rewrite Nat.eqb_refl, Nat.add_0_r.
  rewrite app_length. cbn [length].
  destruct (Nat.ltb_spec (length a) (length a + S (length b))) as [_|H]; [|lia].
  rewrite skipn_app, Nat.sub_diag, skipn_all.
  replace (firstn (S (length a)) (a ++ r :: b)) with (a ++ [r]); [reflexivity|].
  replace (S (length a)) with (length a + 1) by lia. rewrite firstn_app_2. reflexivity.
Qed.

(** ** forms used in the property file *)
Lemma choose_spec g c p internal C P L :
  costs_within g c (- C) C -> prizes_within g p (- P) P -> (0 <= C)%Z -> (0 <= P)%Z ->
  (2 * (Z.of_nat L * C) <= int_max)%Z -> (2 * (Z.of_nat L * P) <= int_max)%Z ->
  forall cands,
  (is_walk g internal /\ Forall (fun v => v < gn g) internal /\ length internal <= L) ->
  Forall (fun w => is_walk g w /\ Forall (fun v => v < gn g) w /\ length w <= L) cands ->
  exists best, choose_extension g c p cands internal = Ok best /\
    match best with
    | None => forall cand, In cand cands -> ~ increases_prize p internal cand
    | Some (idx, l) =>
        exists cand, nth_error cands idx = Some cand /\
          (exists ip ep ic ec, prize_sum p internal ip /\ prize_sum p cand ep /\ (ip < ep)%Z /\
             walk_cost g c internal ic /\ walk_cost g c cand ec /\
             l = f_div (f_of_int (ec - ic)) (f_of_int (ep - ip))) /\
          forall i cand' ip ep ic ec, nth_error cands i = Some cand' ->
             prize_sum p internal ip -> prize_sum p cand' ep -> (ip < ep)%Z ->
             walk_cost g c internal ic -> walk_cost g c cand' ec ->
             let l' := f_div (f_of_int (ec - ic)) (f_of_int (ep - ip)) in
             f_lt l' l = false /\ (i < idx -> f_lt l l' = true)
    end.
Proof.
  intros Hc Hp HC HP HLC HLP cands Hi Hcs.
  destruct (choose_ok g c p internal C P L Hc Hp HC HP HLC HLP cands Hi Hcs) as (best & E & H).
  exists best. split; [exact E|]. destruct best as [[idx l]|]; [|exact H].
  destruct H as (cand & H1 & H2 & H3). exists cand. split; [exact H1|]. split; [exact H2|].
  intros i cand' ip ep ic ec Hn A1 A2 A3 A4 A5 l'. apply (H3 i cand' l' Hn).
  exists ip, ep, ic, ec. repeat (split; [assumption|]). reflexivity.
Qed.

Lemma index_of_smallest_loss_spec l :
  (forall y pb, In (Some (y, pb)) l -> not_nan y) ->
  match index_of_smallest_loss l with
  | None => forall o, In o l -> o = None
  | Some (idx, (x, pa)) =>
      nth_error l idx = Some (Some (x, pa)) /\
      forall i y pb, nth_error l i = Some (Some (y, pb)) ->
        f_lt y x = false /\ (i < idx -> f_lt x y = true)
  end.
Proof.
  intros Hn. pose proof (index_of_smallest_loss_ok l Hn) as H.
  destruct (index_of_smallest_loss l) as [[idx [x pa]]|]; [exact H|].
  intros o Ho. apply In_nth_error in Ho as [i Hi]. simpl in H.
  specialize (H i ltac:(congruence)). congruence.
Qed.
