(** * P_Float: facts about the binary32 operations used by the heuristics. *)
From Coq Require Import SpecFloat.
From Verif Require Import Base M_Float.
Open Scope Z_scope.

(** ** Shifting right *)
Lemma shr_1_m r : 0 <= shr_m r -> shr_m (shr_1 r) = shr_m r / 2.
Proof.
  destruct r as [m a b]; simpl. intros H.
  destruct m as [|[p|p|]|p]; simpl; auto; try lia.
Qed.

Lemma iter_shr_m p r : 0 <= shr_m r ->
  shr_m (SpecFloat.iter_pos shr_1 p r) = shr_m r / 2 ^ Zpos p.
Proof.
  revert r. induction p as [p IH|p IH|]; intros r H; cbn [SpecFloat.iter_pos].
  - assert (H1 : 0 <= shr_m (shr_1 r)) by (rewrite shr_1_m by auto; apply Z.div_pos; lia).
    assert (H2 : 0 <= shr_m (SpecFloat.iter_pos shr_1 p (shr_1 r)))
      by (rewrite IH by auto; apply Z.div_pos; [auto|lia]).
    rewrite IH, IH, shr_1_m by auto.
    rewrite !Z.div_div by lia. f_equal.
    replace (Zpos p~1) with (1 + (Zpos p + Zpos p)) by lia.
    rewrite !Z.pow_add_r by lia. lia.
  - assert (H2 : 0 <= shr_m (SpecFloat.iter_pos shr_1 p r))
      by (rewrite IH by auto; apply Z.div_pos; [auto|lia]).
    rewrite IH, IH by auto. rewrite !Z.div_div by lia. f_equal.
    replace (Zpos p~0) with (Zpos p + Zpos p) by lia.
    rewrite !Z.pow_add_r by lia. lia.
  - now apply shr_1_m.
Qed.

Lemma digits2_bounds p : 2 ^ (Zpos (digits2_pos p) - 1) <= Zpos p < 2 ^ Zpos (digits2_pos p).
Proof.
  induction p as [p IH|p IH|]; cbn [digits2_pos]; [| |simpl; lia];
    replace (Zpos (Pos.succ (digits2_pos p)) - 1) with (1 + (Zpos (digits2_pos p) - 1)) by lia;
    replace (Zpos (Pos.succ (digits2_pos p))) with (1 + Zpos (digits2_pos p)) by lia;
    rewrite !Z.pow_add_r by lia; lia.
Qed.

Lemma Zdigits2_bounds m : 0 < m -> 2 ^ (Zdigits2 m - 1) <= m < 2 ^ Zdigits2 m.
Proof. destruct m as [|p|p]; try lia. intros _. apply digits2_bounds. Qed.

Lemma Zdigits2_pos m : 0 < m -> 1 <= Zdigits2 m.
Proof. destruct m; simpl; lia. Qed.

Lemma Zdigits2_le m d : 0 < m -> 0 <= d -> m <= 2 ^ d -> Zdigits2 m <= d + 1.
Proof.
  intros H Hd Hm. destruct (Z_lt_le_dec (d + 1) (Zdigits2 m)) as [Hl|]; auto.
  pose proof (Zdigits2_bounds m H) as [H1 _].
  assert (2 ^ (d + 1) <= 2 ^ (Zdigits2 m - 1)) by (apply Z.pow_le_mono_r; lia).
  rewrite Z.pow_add_r in H0 by lia.
  assert (0 < 2 ^ d) by (apply Z.pow_pos_nonneg; lia). lia.
Qed.

Lemma shr_m_of_loc m l : shr_m (shr_record_of_loc m l) = m.
Proof. destruct l as [|[| |]]; reflexivity. Qed.

(** normal range: the shift keeps 24 digits *)
Lemma shr_fexp_pos m e l : 0 < m -> -149 <= e ->
  let '(r, e') := shr_fexp 24 128 m e l in
  0 < shr_m r /\ shr_m r < 2 ^ 24 /\ e <= e' /\ e' <= Z.max e (Zdigits2 m + e - 24).
Proof.
  intros Hm He. unfold shr_fexp, fexp, emin.
  pose proof (Zdigits2_bounds m Hm) as [B1 B2]. pose proof (Zdigits2_pos m Hm) as B3.
  set (n := Z.max (Zdigits2 m + e - 24) (3 - 128 - 24) - e).
  unfold shr. destruct n as [|p|p] eqn:En.
  - rewrite shr_m_of_loc. repeat split; try lia.
    apply Z.lt_le_trans with (2 ^ Zdigits2 m); auto. apply Z.pow_le_mono_r; lia.
  - assert (Hp : Zpos p = Zdigits2 m - 24) by lia.
    rewrite iter_shr_m by (rewrite shr_m_of_loc; lia). rewrite shr_m_of_loc.
    assert (P0 : 0 < 2 ^ Zpos p) by (apply Z.pow_pos_nonneg; lia).
    repeat split; try lia.
    + apply Z.div_str_pos. split; auto.
      apply Z.le_trans with (2 ^ (Zdigits2 m - 1)); auto. apply Z.pow_le_mono_r; lia.
    + apply Z.div_lt_upper_bound; auto. rewrite <- Z.pow_add_r by lia.
      replace (Zpos p + 24) with (Zdigits2 m) by lia. auto.
  - rewrite shr_m_of_loc. repeat split; try lia.
    apply Z.lt_le_trans with (2 ^ Zdigits2 m); auto. apply Z.pow_le_mono_r; lia.
Qed.

Lemma round_nearest_even_bounds m l : m <= round_nearest_even m l <= m + 1.
Proof. destruct l as [|[| |]]; simpl; try lia. destruct (Z.even m); lia. Qed.

Lemma binary_round_aux_pos sx m e l : 0 < m -> -149 <= e ->
  exists m' e', (binary_round_aux 24 128 sx m e l = S754_finite sx m' e' \/
                 binary_round_aux 24 128 sx m e l = S754_infinity sx) /\
    (Z.max e (Zdigits2 m + e - 24) + 1 <= 104 -> binary_round_aux 24 128 sx m e l = S754_finite sx m' e').
Proof.
  intros Hm He. unfold binary_round_aux.
  pose proof (shr_fexp_pos m e l Hm He) as H1.
  destruct (shr_fexp 24 128 m e l) as [r1 e1]. destruct H1 as (A1 & A2 & A3 & A4).
  pose proof (round_nearest_even_bounds (shr_m r1) (loc_of_shr_record r1)) as [B1 B2].
  set (m1 := round_nearest_even (shr_m r1) (loc_of_shr_record r1)) in *.
  assert (Hm1 : 0 < m1) by lia.
  pose proof (shr_fexp_pos m1 e1 loc_Exact Hm1 ltac:(lia)) as H2.
  destruct (shr_fexp 24 128 m1 e1 loc_Exact) as [r2 e2]. destruct H2 as (C1 & C2 & C3 & C4).
  assert (D : Zdigits2 m1 <= 24 + 1) by (apply Zdigits2_le; lia).
  destruct (shr_m r2) as [|m2|m2]; try lia. exists m2, e2.
  destruct (Z.leb_spec e2 (128 - 24)) as [Hle|Hle].
  - split; auto.
  - split; auto. intros. lia.
Qed.

(** ** Conversion from int *)
Definition is_fin (s : bool) (x : float32) : Prop := exists m e, x = S754_finite s m e.

Lemma binary_round_int s p : Zpos p <= 2 ^ 32 -> is_fin s (binary_round 24 128 s p 0).
Proof.
  intros Hp. unfold binary_round, fexp, emin, shl_align.
  pose proof (digits2_bounds p) as [B1 B2]. set (D := Zpos (digits2_pos p)) in *.
  assert (HD : 1 <= D) by (unfold D; lia).
  assert (HD33 : D <= 33).
  { destruct (Z_lt_le_dec 33 D) as [H|]; auto.
    assert (2 ^ 33 <= 2 ^ (D - 1)) by (apply Z.pow_le_mono_r; lia).
    assert (2 ^ 32 < 2 ^ 33) by (apply Z.pow_lt_mono_r; lia). lia. }
  set (n := Z.max (D + 0 - 24) (3 - 128 - 24) - 0). assert (Hn : n = D - 24) by lia.
  destruct n as [|q|q] eqn:En.
  - destruct (binary_round_aux_pos s (Zpos p) 0 loc_Exact) as (m & e & _ & H); try lia.
    exists m, e. apply H. unfold Zdigits2. fold D. lia.
  - destruct (binary_round_aux_pos s (Zpos p) 0 loc_Exact) as (m & e & _ & H); try lia.
    exists m, e. apply H. unfold Zdigits2. fold D. lia.
  - assert (Hs : Zpos (shift_pos q p) = Zpos p * 2 ^ Zpos q).
    { rewrite shift_pos_correct, Z.mul_comm. reflexivity. }
    destruct (binary_round_aux_pos s (Zpos (shift_pos q p)) (Z.max (D + 0 - 24) (3 - 128 - 24)) loc_Exact)
      as (m & e & _ & H); try lia.
    exists m, e. apply H.
    assert (Zdigits2 (Zpos (shift_pos q p)) <= 24 + 1).
    { apply Zdigits2_le; try lia. rewrite Hs.
      replace 24 with (D + Zpos q) by lia. rewrite Z.pow_add_r by lia.
      apply Z.mul_le_mono_nonneg_r; [|lia]. apply Z.pow_nonneg. lia. }
    lia.
Qed.

(** ints (and differences of ints that fit) convert to finite floats with their sign *)
Lemma f_of_int_pos z : 0 < z <= 2 ^ 32 -> is_fin false (f_of_int z).
Proof. destruct z as [|p|p]; try lia. intros [_ H]. now apply binary_round_int. Qed.

Lemma f_of_int_neg z : - 2 ^ 32 <= z < 0 -> is_fin true (f_of_int z).
Proof. destruct z as [|p|p]; try lia. intros [H _]. apply binary_round_int. lia. Qed.

Lemma f_of_int_0 : f_of_int 0 = f_zero.
Proof. reflexivity. Qed.

Lemma f_lt_zero_fin s x : is_fin s x -> f_lt f_zero x = negb s.
Proof. intros (m & e & ->). destruct s; reflexivity. Qed.

Lemma f_pos_int z : int_min <= z <= int_max -> f_lt f_zero (f_of_int z) = (0 <? z).
Proof.
  intros H. unfold int_min, int_max in H.
  destruct (Z.ltb_spec 0 z) as [Hp|Hn].
  - rewrite (f_lt_zero_fin false); auto. apply f_of_int_pos. lia.
  - destruct (Z.eq_dec z 0) as [->|Hz]; [reflexivity|].
    rewrite (f_lt_zero_fin true); auto. apply f_of_int_neg. lia.
Qed.

(** ** Not a number *)
Definition not_nan (x : float32) : Prop := x <> S754_nan.

Lemma shr_fexp_nonneg m e l : 0 <= m -> 0 <= shr_m (fst (shr_fexp 24 128 m e l)).
Proof.
  intros H. unfold shr_fexp, shr.
  destruct (_ - e); cbn [fst]; rewrite ?iter_shr_m; rewrite ?shr_m_of_loc; auto.
  apply Z.div_pos; auto. apply Z.pow_pos_nonneg; lia.
Qed.

Lemma binary_round_aux_not_nan s m e l : 0 <= m -> not_nan (binary_round_aux 24 128 s m e l).
Proof.
  intros H. unfold binary_round_aux.
  pose proof (shr_fexp_nonneg m e l H) as H1. destruct (shr_fexp 24 128 m e l) as [r1 e1].
  cbn [fst] in H1.
  pose proof (round_nearest_even_bounds (shr_m r1) (loc_of_shr_record r1)) as [B1 B2].
  pose proof (shr_fexp_nonneg (round_nearest_even (shr_m r1) (loc_of_shr_record r1)) e1 loc_Exact
    ltac:(lia)) as H2.
  destruct (shr_fexp 24 128 (round_nearest_even (shr_m r1) (loc_of_shr_record r1)) e1 loc_Exact)
    as [r2 e2]. cbn [fst] in H2.
  destruct (shr_m r2); try lia; [discriminate|]. destruct (e2 <=? 128 - 24); discriminate.
Qed.

Lemma f_of_int_not_nan z : not_nan (f_of_int z).
Proof.
  unfold f_of_int, binary_normalize. destruct z; [discriminate| |];
    unfold binary_round; destruct (shl_align _ _ _); apply binary_round_aux_not_nan; lia.
Qed.

Lemma f_div_core_nonneg m1 e1 m2 e2 :
  0 <= fst (fst (SFdiv_core_binary 24 128 (Zpos m1) e1 (Zpos m2) e2)).
Proof.
  unfold SFdiv_core_binary.
  set (e := Z.min _ _). clearbody e.
  set (m' := match e1 - e2 - e with Zpos _ => _ | Z0 => _ | Zneg _ => _ end).
  assert (Hm' : 0 <= m').
  { unfold m'. destruct (e1 - e2 - e) eqn:E; try lia.
    rewrite Z.shiftl_mul_pow2 by lia. apply Z.mul_nonneg_nonneg; [lia|]. apply Z.pow_nonneg; lia. }
  pose proof (Z.div_pos m' (Zpos m2) Hm' ltac:(lia)) as Hd. unfold Z.div in Hd.
  destruct (Z.div_eucl m' (Zpos m2)) as [q r]. exact Hd.
Qed.

Lemma f_div_not_nan x y s : not_nan x -> x <> S754_infinity true -> x <> S754_infinity false ->
  is_fin s y -> not_nan (f_div x y).
Proof.
  intros Hx H1 H2 (m & e & ->). unfold f_div, f_prec, f_emax.
  destruct x as [b|[|]| |b m1 e1]; try congruence; [discriminate|].
  cbn [SFdiv].
  pose proof (f_div_core_nonneg m1 e1 m e) as H.
  destruct (SFdiv_core_binary 24 128 (Zpos m1) e1 (Zpos m) e) as [[mz ez] lz].
  now apply binary_round_aux_not_nan.
Qed.

(** ** [<] on floats other than NaN is a strict weak order *)
Definition f_key (x : float32) : Z * Z * Z :=
  match x with
  | S754_infinity true => (-2, 0, 0)
  | S754_finite true m e => (-1, - e, - Zpos m)
  | S754_zero _ => (0, 0, 0)
  | S754_finite false m e => (1, e, Zpos m)
  | S754_infinity false => (2, 0, 0)
  | S754_nan => (3, 0, 0)
  end.

Definition key_lt (a b : Z * Z * Z) : Prop :=
  let '(a1, a2, a3) := a in let '(b1, b2, b3) := b in
  a1 < b1 \/ a1 = b1 /\ (a2 < b2 \/ a2 = b2 /\ a3 < b3).

Lemma f_lt_key x y : not_nan x -> not_nan y -> f_lt x y = true <-> key_lt (f_key x) (f_key y).
Proof.
  unfold not_nan. intros Hx Hy. unfold f_lt, SFltb.
  destruct x as [a|[|]| |[|] m1 e1], y as [b|[|]| |[|] m2 e2]; try congruence; simpl;
    try (split; [intros; try discriminate; lia | intros; try reflexivity; lia]).
  - destruct (Z.compare_spec e1 e2) as [->|H|H].
    + change (Pos.compare_cont Eq m1 m2) with (Pos.compare m1 m2).
      destruct (Pos.compare_spec m1 m2) as [->|H|H]; simpl; split; intros; try discriminate; try reflexivity; lia.
    + split; intros; try discriminate; lia.
    + split; intros; try reflexivity; lia.
  - destruct (Z.compare_spec e1 e2) as [->|H|H].
    + change (Pos.compare_cont Eq m1 m2) with (Pos.compare m1 m2).
      destruct (Pos.compare_spec m1 m2) as [->|H|H]; split; intros; try discriminate; try reflexivity; lia.
    + split; intros; try reflexivity; lia.
    + split; intros; try discriminate; lia.
Qed.

Lemma f_lt_irrefl x : f_lt x x = false.
Proof.
  destruct (f_lt x x) eqn:E; auto. exfalso.
  assert (Hx : not_nan x) by (intros ->; discriminate).
  apply f_lt_key in E; auto. destruct (f_key x) as [[a b] c]. simpl in E. lia.
Qed.

Lemma f_lt_trans x y z : f_lt x y = true -> f_lt y z = true -> f_lt x z = true.
Proof.
  intros E1 E2.
  assert (Hx : not_nan x) by (intros ->; discriminate).
  assert (Hy : not_nan y) by (intros ->; discriminate).
  assert (Hz : not_nan z) by (intros ->; destruct y as [[|]|[|]| |[|]]; discriminate).
  apply f_lt_key in E1; auto. apply f_lt_key in E2; auto. apply f_lt_key; auto.
  destruct (f_key x) as [[a b] c], (f_key y) as [[a' b'] c'], (f_key z) as [[a'' b''] c''].
  simpl in *. lia.
Qed.

(** negative transitivity *)
Lemma f_lt_ntrans x y z : not_nan x -> not_nan y -> not_nan z ->
  f_lt x y = false -> f_lt y z = false -> f_lt x z = false.
Proof.
  intros Hx Hy Hz E1 E2. destruct (f_lt x z) eqn:E; auto. exfalso.
  apply f_lt_key in E; auto.
  assert (N1 : ~ key_lt (f_key x) (f_key y)) by (rewrite <- f_lt_key by auto; congruence).
  assert (N2 : ~ key_lt (f_key y) (f_key z)) by (rewrite <- f_lt_key by auto; congruence).
  destruct (f_key x) as [[a b] c], (f_key y) as [[a' b'] c'], (f_key z) as [[a'' b''] c''].
  simpl in *. lia.
Qed.

Lemma f_lt_asym x y : f_lt x y = true -> f_lt y x = false.
Proof.
  intros E. destruct (f_lt y x) eqn:E2; auto.
  pose proof (f_lt_trans _ _ _ E E2) as H. rewrite f_lt_irrefl in H. discriminate.
Qed.

(** ** Positive quotients of ints stay positive *)
Lemma binary_round_aux_range sx m e l : 0 < m -> -149 <= e ->
  Z.max e (Zdigits2 m + e - 24) + 1 <= 104 ->
  exists m' e', binary_round_aux 24 128 sx m e l = S754_finite sx m' e' /\
    Zpos m' < 2 ^ 24 /\ e <= e' <= Z.max e (Zdigits2 m + e - 24) + 1.
Proof.
  intros Hm He Hmax. unfold binary_round_aux.
  pose proof (shr_fexp_pos m e l Hm He) as H1.
  destruct (shr_fexp 24 128 m e l) as [r1 e1]. destruct H1 as (A1 & A2 & A3 & A4).
  pose proof (round_nearest_even_bounds (shr_m r1) (loc_of_shr_record r1)) as [B1 B2].
  set (m1 := round_nearest_even (shr_m r1) (loc_of_shr_record r1)) in *.
  assert (Hm1 : 0 < m1) by lia.
  pose proof (shr_fexp_pos m1 e1 loc_Exact Hm1 ltac:(lia)) as H2.
  destruct (shr_fexp 24 128 m1 e1 loc_Exact) as [r2 e2]. destruct H2 as (C1 & C2 & C3 & C4).
  assert (D : Zdigits2 m1 <= 24 + 1) by (apply Zdigits2_le; lia).
  destruct (shr_m r2) as [|m2|m2]; try lia. exists m2, e2.
  destruct (Z.leb_spec e2 (128 - 24)) as [Hle|Hle]; [|lia].
  split; auto. split; auto. lia.
Qed.

Lemma f_of_int_range z : 0 < z <= 2 ^ 32 ->
  exists m e, f_of_int z = S754_finite false m e /\ Zpos m < 2 ^ 24 /\ -23 <= e <= 10.
Proof.
  destruct z as [|p|p]; try lia. intros [_ Hp].
  unfold f_of_int, binary_normalize, binary_round, fexp, emin, shl_align, f_prec, f_emax.
  pose proof (digits2_bounds p) as [B1 B2]. set (D := Zpos (digits2_pos p)) in *.
  assert (HD : 1 <= D) by (unfold D; lia).
  assert (HD33 : D <= 33).
  { destruct (Z_lt_le_dec 33 D) as [H|]; auto.
    assert (2 ^ 33 <= 2 ^ (D - 1)) by (apply Z.pow_le_mono_r; lia).
    assert (2 ^ 32 < 2 ^ 33) by (apply Z.pow_lt_mono_r; lia). lia. }
  set (n := Z.max (D + 0 - 24) (3 - 128 - 24) - 0). assert (Hn : n = D - 24) by lia.
  destruct n as [|q|q] eqn:En.
  - destruct (binary_round_aux_range false (Zpos p) 0 loc_Exact) as (m & e & E & H1 & H2);
      [lia|lia|change (Zdigits2 (Zpos p)) with D; lia|].
    change (Zdigits2 (Zpos p)) with D in H2. exists m, e. split; auto. split; auto. lia.
  - destruct (binary_round_aux_range false (Zpos p) 0 loc_Exact) as (m & e & E & H1 & H2);
      [lia|lia|change (Zdigits2 (Zpos p)) with D; lia|].
    change (Zdigits2 (Zpos p)) with D in H2. exists m, e. split; auto. split; auto. lia.
  - assert (Hs : Zpos (shift_pos q p) = Zpos p * 2 ^ Zpos q).
    { rewrite shift_pos_correct, Z.mul_comm. reflexivity. }
    assert (HZ : Zdigits2 (Zpos (shift_pos q p)) <= 24 + 1).
    { apply Zdigits2_le; try lia. rewrite Hs.
      replace 24 with (D + Zpos q) by lia. rewrite Z.pow_add_r by lia.
      apply Z.mul_le_mono_nonneg_r; [|lia]. apply Z.pow_nonneg. lia. }
    destruct (binary_round_aux_range false (Zpos (shift_pos q p))
      (Z.max (D + 0 - 24) (3 - 128 - 24)) loc_Exact) as (m & e & E & H1 & H2); try lia.
    exists m, e. split; auto. split; auto. lia.
Qed.

Lemma f_div_fin_pos m1 e1 m2 e2 : Zpos m1 < 2 ^ 24 -> Zpos m2 < 2 ^ 24 ->
  -23 <= e1 <= 10 -> -23 <= e2 <= 10 ->
  f_lt f_zero (f_div (S754_finite false m1 e1) (S754_finite false m2 e2)) = true.
Proof.
  intros Hm1 Hm2 He1 He2. unfold f_div, f_prec, f_emax. cbn [SFdiv xorb].
  unfold SFdiv_core_binary, fexp, emin.
  pose proof (Zdigits2_bounds (Zpos m1) ltac:(lia)) as [A1 A2].
  pose proof (Zdigits2_bounds (Zpos m2) ltac:(lia)) as [B1 B2].
  pose proof (Zdigits2_pos (Zpos m1) ltac:(lia)) as A3.
  pose proof (Zdigits2_pos (Zpos m2) ltac:(lia)) as B3.
  assert (A4 : Zdigits2 (Zpos m1) <= 25) by (apply (Zdigits2_le _ 24); lia).
  assert (B4 : Zdigits2 (Zpos m2) <= 25) by (apply (Zdigits2_le _ 24); lia).
  set (d1 := Zdigits2 (Zpos m1)) in *. set (d2 := Zdigits2 (Zpos m2)) in *.
  set (e := Z.min (Z.max (d1 + e1 - (d2 + e2) - 24) (3 - 128 - 24)) (e1 - e2)).
  assert (He : e = Z.min (d1 + e1 - (d2 + e2) - 24) (e1 - e2)) by lia.
  set (s := e1 - e2 - e). assert (Hs : 0 <= s) by lia. assert (Hs' : d2 - d1 + 24 <= s) by lia.
  assert (Hm' : match s with Zpos _ => Z.shiftl (Zpos m1) s | Z0 => Zpos m1 | Zneg _ => 0 end
                = Zpos m1 * 2 ^ s).
  { destruct s as [|q|q] eqn:Es; [simpl; lia| |lia]. rewrite Z.shiftl_mul_pow2 by lia. reflexivity. }
  rewrite Hm'. clear Hm'.
  assert (Hge : Zpos m2 <= Zpos m1 * 2 ^ s).
  { apply Z.le_trans with (2 ^ (d1 - 1) * 2 ^ s).
    - rewrite <- Z.pow_add_r by lia. apply Z.le_trans with (2 ^ d2); [lia|].
      apply Z.pow_le_mono_r; lia.
    - apply Z.mul_le_mono_nonneg_r; auto. apply Z.pow_nonneg; lia. }
  assert (Hq : 0 < Zpos m1 * 2 ^ s / Zpos m2) by (apply Z.div_str_pos; lia).
  unfold Z.div in Hq. destruct (Z.div_eucl (Zpos m1 * 2 ^ s) (Zpos m2)) as [q r].
  destruct (binary_round_aux_pos false q e (new_location (Zpos m2) r)) as (m & e' & [E|E] & _);
    try lia; rewrite E; reflexivity.
Qed.

Lemma f_div_int_pos q d : 0 < q <= 2 ^ 32 -> 0 <= d <= 2 ^ 32 ->
  f_lt f_zero (f_div (f_of_int q) (f_of_int d)) = true.
Proof.
  intros Hq Hd. destruct (f_of_int_range q Hq) as (m & e & E & H1 & H2). rewrite E.
  destruct (Z.eq_dec d 0) as [->|Hn]; [reflexivity|].
  destruct (f_of_int_range d ltac:(lia)) as (m' & e' & E' & H1' & H2'). rewrite E'.
  now apply f_div_fin_pos.
Qed.

(** a quotient with a positive numerator and a negative denominator is never positive *)
Lemma f_div_int_neg q d : 0 <= q <= 2 ^ 32 -> - 2 ^ 32 <= d < 0 ->
  f_lt f_zero (f_div (f_of_int q) (f_of_int d)) = false.
Proof.
  intros Hq Hd. destruct (f_of_int_neg d Hd) as (m' & e' & E'). rewrite E'.
  destruct (Z.eq_dec q 0) as [->|Hn]; [reflexivity|].
  destruct (f_of_int_pos q ltac:(lia)) as (m & e & E). rewrite E.
  unfold f_div, f_prec, f_emax. cbn [SFdiv xorb].
  destruct (SFdiv_core_binary 24 128 (Zpos m) e (Zpos m') e') as [[mz ez] lz].
  unfold binary_round_aux. destruct (shr_fexp 24 128 mz ez lz) as [r1 e1].
  destruct (shr_fexp 24 128 (round_nearest_even (shr_m r1) (loc_of_shr_record r1)) e1 loc_Exact) as [r2 e2].
  destruct (shr_m r2); try reflexivity. destruct (e2 <=? 128 - 24); reflexivity.
Qed.
