(** * P_Settings: proofs about the rounding of the limit on the time *)
From Coq Require Import QArith Qpower Qabs Lqa.
From Verif Require Import Base M_Settings Spec_Settings.
Open Scope Z_scope.

Lemma pow2_pos e : (0 < (2#1) ^ e)%Q.
Proof.
  assert (0 <= (2#1) ^ e)%Q by (apply Qpower_pos; discriminate). assert (~ ((2#1) ^ e == 0)%Q) by (apply Qpower_not_0; discriminate). lra.
Qed.

Lemma num_shift m e j : 0 <= j -> (inject_Z m * (2#1) ^ (e + j) == inject_Z (m * 2 ^ j) * (2#1) ^ e)%Q.
Proof.
  intro H. rewrite Qpower_plus by discriminate. rewrite inject_Z_mult.
  assert (E : (inject_Z (2 ^ j) == (2#1) ^ j)%Q).
  { rewrite <- (Z2Nat.id j H). clear H. induction (Z.to_nat j) as [|n IH]; [reflexivity|].
    rewrite Nat2Z.inj_succ, Z.pow_succ_r by lia. rewrite inject_Z_mult, IH.
    unfold Z.succ. rewrite Qpower_plus by discriminate. change (inject_Z 2) with (2#1). ring_simplify. reflexivity. }
  rewrite E. ring.
Qed.

Lemma abs_scaled a b u : (0 < u)%Q -> (Qabs (inject_Z a * u - inject_Z b * u) == inject_Z (Z.abs (a - b)) * u)%Q.
Proof.
  intro H. assert (E : (inject_Z a * u - inject_Z b * u == inject_Z (a - b) * u)%Q).
  { unfold Z.sub. rewrite inject_Z_plus, inject_Z_opp. ring. }
  rewrite E, Qabs_Qmult, (Qabs_pos u) by lra. reflexivity.
Qed.

Lemma le_scaled a b u : (0 < u)%Q -> (inject_Z a * u <= inject_Z b * u)%Q <-> a <= b.
Proof.
  intro H. rewrite (Zle_Qle a b). split; intro K; [eapply Qmult_lt_0_le_reg_r; eassumption|apply Qmult_le_compat_r; [exact K|lra]].
Qed.

Lemma eq_scaled a b u : (0 < u)%Q -> (inject_Z a * u == inject_Z b * u)%Q <-> a = b.
Proof.
  intro H. split; [|now intros ->]. intro K.
  assert (a <= b) by (apply (le_scaled a b u H); lra). assert (b <= a) by (apply (le_scaled b a u H); lra). lia.
Qed.

(** The mantissa that is chosen. *)
Definition choose (q r h : Z) : Z := if r <? h then q else if h <? r then q + 1 else if Z.even q then q else q + 1.

Lemma choose_spec q r h : 0 <= r < 2 * h -> 0 < h ->
  let c := choose q r h in q <= c <= q + 1 /\ Z.abs (2 * h * q + r - 2 * h * c) <= h /\
  (Z.abs (2 * h * q + r - 2 * h * c) = h -> Z.Even c).
Proof.
  intros Hr Hh c. unfold c, choose. destruct (Z.ltb_spec r h); [nia|]. destruct (Z.ltb_spec h r); [nia|].
  assert (r = h) by lia. subst r. destruct (Z.even q) eqn:E.
  - split; [lia|]. split; [nia|]. intros _. now apply Z.even_spec.
  - split; [lia|]. split; [nia|]. intros _. apply Z.even_spec. rewrite Z.even_add, E. reflexivity.
Qed.

(** A number [y] is a multiple of the unit or not beyond the least number with 24 digits: then it is not nearer. *)
Lemma nearer a q r h J y c : 0 <= r < 2 * h -> 0 < h -> 0 < J -> a = 2 * h * q + r -> 2 ^ 23 <= q -> c = choose q r h ->
  (exists z, y = z * (2 * h * J)) \/ Z.abs y <= 2 ^ 23 * (2 * h * J) ->
  Z.abs (a * J - c * (2 * h * J)) <= Z.abs (a * J - y) /\
  (Z.abs (a * J - c * (2 * h * J)) = Z.abs (a * J - y) -> y <> c * (2 * h * J) -> Z.Even c).
Proof.
  intros Hr Hh HJ -> Hq -> Hy.
  destruct (choose_spec q r h Hr Hh) as (C1 & C2 & C3). set (c := choose q r h) in *.
  assert (E : (2 * h * q + r) * J - c * (2 * h * J) = (2 * h * q + r - 2 * h * c) * J) by ring.
  rewrite E, Z.abs_mul, (Z.abs_eq J) by lia. clear E.
  destruct Hy as [[z ->]|Hy].
  - replace ((2 * h * q + r) * J - z * (2 * h * J)) with ((2 * h * q + r - 2 * h * z) * J) by ring.
    rewrite Z.abs_mul, (Z.abs_eq J) by lia.
    assert (D : z = c \/ Z.abs (2 * h * (z - c)) >= 2 * h) by (destruct (Z.eq_dec z c); [now left|right; nia]).
    destruct D as [->|D]; [split; [lia|intros _ N; contradiction N; ring]|].
    assert (2 * h <= Z.abs (2 * h * q + r - 2 * h * c) + Z.abs (2 * h * q + r - 2 * h * z)) by nia.
    split; [nia|]. intros K _. apply C3.
    assert (Z.abs (2 * h * q + r - 2 * h * c) = Z.abs (2 * h * q + r - 2 * h * z)) by nia. lia.
  - (* y is at most the least number with 24 digits *)
    assert (B : 2 ^ 23 * (2 * h * J) <= (2 * h * q) * J) by nia.
    set (e := Z.abs (2 * h * q + r - 2 * h * c)) in *.
    assert (R : e <= r).
    { unfold e, c, choose. destruct (Z.ltb_spec r h); [nia|]. destruct (Z.ltb_spec h r); [nia|].
      destruct (Z.even q); nia. }
    assert (Y : r * J <= Z.abs ((2 * h * q + r) * J - y)).
    { assert (y <= 2 * h * q * J) by lia. nia. }
    split; [nia|]. intros K N.
    assert (e = r) by nia.
    destruct (Z.eq_dec e h) as [->|Ne]; [now apply C3|].
    exfalso. apply N. assert (y <= 2 * h * q * J) by lia.
    assert (r < h) by lia. assert (c = q) by (unfold c, choose; destruct (Z.ltb_spec r h); lia).
    assert (y = 2 * h * q * J) by nia. subst y. rewrite H2. ring.
Qed.

(** The rounding written with its parts. *)
Lemma to_float_parts x : let a := Z.abs (dy_m x) in let k := Z.log2 a + 1 - 24 in
  (k <= 0 /\ a < 2 ^ 24 /\ to_float x = x) \/
  (0 < k /\ exists q r h, 0 <= r < 2 * h /\ 0 < h /\ 2 * h = 2 ^ k /\ a = 2 * h * q + r /\ 2 ^ 23 <= q < 2 ^ 24 /\
     to_float x = mkDy (Z.sgn (dy_m x) * choose q r h) (dy_e x + k)).
Proof.
  intros a k. unfold to_float. fold a. cbv zeta. fold k. destruct (Z.leb_spec k 0) as [K|K].
  - left. split; [exact K|]. split; [|reflexivity]. destruct (Z.eq_dec a 0) as [->|Ha]; [reflexivity|].
    apply Z.log2_lt_pow2; unfold k in K; lia.
  - right. split; [exact K|].
    assert (Ha : 0 < a). { destruct (Z.eq_dec a 0) as [E|]; [|unfold a in *; lia]. unfold k in K. rewrite E in K. cbn in K. lia. }
    destruct (Z.log2_spec a Ha) as [L1 L2].
    assert (P : 0 < 2 ^ (k - 1)) by (apply Z.pow_pos_nonneg; lia).
    assert (P2 : 2 * 2 ^ (k - 1) = 2 ^ k) by (rewrite <- Z.pow_succ_r by lia; f_equal; lia).
    exists (a / 2 ^ k), (a mod 2 ^ k), (2 ^ (k - 1)). rewrite P2.
    assert (M := Z.mod_pos_bound a (2 ^ k) ltac:(lia)). assert (D := Z.div_mod a (2 ^ k) ltac:(lia)).
    split; [exact M|]. split; [exact P|]. split; [reflexivity|]. split; [exact D|].
    assert (B1 : 2 ^ Z.log2 a = 2 ^ 23 * 2 ^ k) by (rewrite <- Z.pow_add_r by lia; f_equal; unfold k; lia).
    assert (B2 : 2 ^ Z.succ (Z.log2 a) = 2 ^ 24 * 2 ^ k) by (rewrite <- Z.pow_add_r by lia; f_equal; unfold k; lia).
    split; [|reflexivity]. split; [apply Z.div_le_lower_bound; lia|apply Z.div_lt_upper_bound; lia].
Qed.

Lemma sgn_abs_sub m y : m <> 0 -> forall c, Z.abs (m - Z.sgn m * c) = Z.abs (Z.abs m - c) /\ Z.abs (m - y) = Z.abs (Z.abs m - Z.sgn m * y).
Proof. intros H c. destruct m; [contradiction|cbn [Z.sgn Z.abs]; lia..]. Qed.

(** The number, its rounding and another number in a common unit. *)
Lemma common_unit x q r h y m' e' : let k := Z.log2 (Z.abs (dy_m x)) + 1 - 24 in 0 < k -> 2 * h = 2 ^ k -> 0 < h ->
  Z.abs m' <= 2 ^ 24 -> (y == inject_Z m' * (2#1) ^ e')%Q ->
  exists u J Y, (0 < u)%Q /\ 0 < J /\ (num x == inject_Z (dy_m x * J) * u)%Q /\
    (num (mkDy (Z.sgn (dy_m x) * choose q r h) (dy_e x + k)) == inject_Z (Z.sgn (dy_m x) * choose q r h * (2 * h * J)) * u)%Q /\
    (y == inject_Z Y * u)%Q /\ ((exists z, Y = z * (2 * h * J)) \/ Z.abs Y <= 2 ^ 23 * (2 * h * J)).
Proof.
  intros k K Hk Hh Hm' Ey. set (s := Z.sgn (dy_m x) * choose q r h). unfold num. cbn [dy_m dy_e].
  destruct (Z.le_gt_cases (dy_e x) e') as [L|L].
  - exists ((2#1) ^ dy_e x)%Q, 1, (m' * 2 ^ (e' - dy_e x)). split; [apply pow2_pos|]. split; [lia|].
    rewrite Z.mul_1_r. split; [reflexivity|]. rewrite Z.mul_1_r, Hk. split; [apply num_shift; lia|].
    split; [rewrite Ey, <- num_shift by lia; replace (dy_e x + (e' - dy_e x)) with e' by lia; reflexivity|].
    destruct (Z.le_gt_cases k (e' - dy_e x)) as [L2|L2].
    + left. exists (m' * 2 ^ (e' - dy_e x - k)). rewrite <- Z.mul_assoc, <- Z.pow_add_r by lia. do 2 f_equal. lia.
    + right. rewrite Z.abs_mul, (Z.abs_eq (2 ^ _)) by (apply Z.pow_nonneg; lia).
      replace (2 ^ k) with (2 * 2 ^ (k - 1)) by (rewrite <- Z.pow_succ_r by lia; f_equal; lia).
      assert (2 ^ (e' - dy_e x) <= 2 ^ (k - 1)) by (apply Z.pow_le_mono_r; lia).
      assert (0 < 2 ^ (e' - dy_e x)) by (apply Z.pow_pos_nonneg; lia).
      change (2 ^ 24) with (2 ^ 23 * 2) in Hm'. nia.
  - set (J := 2 ^ (dy_e x - e')). assert (HJ : 0 < J) by (apply Z.pow_pos_nonneg; lia).
    exists ((2#1) ^ e')%Q, J, m'. split; [apply pow2_pos|]. split; [exact HJ|].
    split; [unfold J; rewrite <- num_shift by lia; replace (e' + (dy_e x - e')) with (dy_e x) by lia; reflexivity|].
    split. { unfold J. rewrite Hk, <- Z.pow_add_r, <- num_shift by lia. replace (e' + (k + (dy_e x - e'))) with (dy_e x + k) by lia. reflexivity. }
    split; [exact Ey|]. right. change (2 ^ 24) with (2 ^ 23 * 2) in Hm'. nia.
Qed.

Lemma to_float_float x : float_number (num (to_float x)).
Proof.
  destruct (to_float_parts x) as [(_ & B & ->)|(K & q & r & h & R & H & Hk & A & Q & ->)].
  - exists (dy_m x), (dy_e x). split; [lia|reflexivity].
  - exists (Z.sgn (dy_m x) * choose q r h), (dy_e x + (Z.log2 (Z.abs (dy_m x)) + 1 - 24)). split; [|reflexivity].
    destruct (choose_spec q r h R H) as (C & _). rewrite Z.abs_mul.
    assert (Z.abs (Z.sgn (dy_m x)) <= 1) by (destruct (dy_m x); cbn; lia). nia.
Qed.

(** The rounding is the nearest number. *)
Theorem to_float_nearest x : nearest (num x) (num (to_float x)).
Proof.
  split; [apply to_float_float|].
  destruct (to_float_parts x) as [(_ & B & ->)|(K & q & r & h & R & H & Hk & A & Q & ->)].
  - assert (Z : (Qabs (num x - num x) == 0)%Q) by (setoid_replace (num x - num x)%Q with 0%Q by ring; reflexivity).
    split; intros y Fy; [rewrite Z; apply Qabs_nonneg|]. intros E N. exfalso. apply N. rewrite Z in E.
    assert (~ (0 < Qabs (num x - y))%Q) by (rewrite <- E; lra).
    destruct (Q_dec (num x) y) as [[L|L]|L]; [exfalso; apply H..|now symmetry].
    + rewrite Qabs_neg by lra. lra.
    + rewrite Qabs_pos by lra. lra.
  - assert (M0 : dy_m x <> 0) by (intro E; rewrite E in K; cbn in K; lia).
    assert (G : forall y, float_number y ->
      (Qabs (num x - num (mkDy (Z.sgn (dy_m x) * choose q r h) (dy_e x + (Z.log2 (Z.abs (dy_m x)) + 1 - 24)))) <= Qabs (num x - y))%Q /\
      ((Qabs (num x - num (mkDy (Z.sgn (dy_m x) * choose q r h) (dy_e x + (Z.log2 (Z.abs (dy_m x)) + 1 - 24)))) == Qabs (num x - y))%Q ->
        ~ (y == num (mkDy (Z.sgn (dy_m x) * choose q r h) (dy_e x + (Z.log2 (Z.abs (dy_m x)) + 1 - 24))))%Q -> Z.Even (choose q r h))).
    { intros y (m' & e' & Hm' & Ey).
      destruct (common_unit x q r h y m' e' K Hk H Hm' Ey) as (u & J & Y & Hu & HJ & Ex & Ef & Ey' & HY).
      rewrite Ex, Ef, Ey', !abs_scaled by exact Hu. rewrite le_scaled, !eq_scaled by exact Hu.
      assert (HY' : (exists z, Z.sgn (dy_m x) * Y = z * (2 * h * J)) \/ Z.abs (Z.sgn (dy_m x) * Y) <= 2 ^ 23 * (2 * h * J)).
      { destruct HY as [[z ->]|HY]; [left; exists (Z.sgn (dy_m x) * z); ring|right].
        rewrite Z.abs_mul. assert (Z.abs (Z.sgn (dy_m x)) = 1) as -> by (destruct (dy_m x); [contradiction|reflexivity..]). lia. }
      destruct (nearer (Z.abs (dy_m x)) q r h J _ _ R H HJ A ltac:(lia) eq_refl HY') as [N1 N2].
      assert (E1 : Z.abs (dy_m x * J - Z.sgn (dy_m x) * choose q r h * (2 * h * J)) = Z.abs (Z.abs (dy_m x) * J - choose q r h * (2 * h * J))).
      { destruct (dy_m x); [contradiction|cbn [Z.sgn Z.abs]; lia..]. }
      assert (E2 : Z.abs (dy_m x * J - Y) = Z.abs (Z.abs (dy_m x) * J - Z.sgn (dy_m x) * Y)).
      { destruct (dy_m x); [contradiction|cbn [Z.sgn Z.abs]; lia..]. }
      rewrite E1, E2. split; [exact N1|]. intros E N. apply N2; [exact E|]. intro E3. apply N.
      destruct (dy_m x); [contradiction|cbn [Z.sgn] in *; lia..]. }
    split; intros y Fy; [apply (G y Fy)|]. intros E N. destruct (G y Fy) as [_ G2]. specialize (G2 E N).
    destruct (choose_spec q r h R H) as (C & _).
    exists (Z.sgn (dy_m x) * choose q r h), (dy_e x + (Z.log2 (Z.abs (dy_m x)) + 1 - 24)). split; [|split; [|reflexivity]].
    + rewrite Z.abs_mul. assert (Z.abs (Z.sgn (dy_m x)) = 1) as -> by (destruct (dy_m x); [contradiction|reflexivity..]). lia.
    + destruct G2 as [z ->]. exists (Z.sgn (dy_m x) * z). ring.
Qed.

(** A number with 24 digits is not changed. *)
Lemma to_float_exact x : float_number (num x) -> (num (to_float x) == num x)%Q.
Proof.
  intro F. destruct (to_float_nearest x) as (_ & N & _). specialize (N _ F).
  setoid_replace (num x - num x)%Q with 0%Q in N by ring. change (Qabs 0) with 0%Q in N.
  destruct (Q_dec (num x) (num (to_float x))) as [[L|L]|L]; [..|now symmetry]; exfalso.
  - rewrite Qabs_neg in N by lra. lra.
  - rewrite Qabs_pos in N by lra. lra.
Qed.

(** The relative error. *)
Lemma to_float_error x : (Qabs (num x - num (to_float x)) <= Qabs (num x) * (1 # 2 ^ 24))%Q.
Proof.
  destruct (to_float_parts x) as [(_ & B & ->)|(K & q & r & h & R & H & Hk & A & Q & ->)].
  - setoid_replace (num x - num x)%Q with 0%Q by ring. change (Qabs 0) with 0%Q.
    apply Qmult_le_0_compat; [apply Qabs_nonneg|discriminate].
  - assert (M0 : dy_m x <> 0) by (intro E; rewrite E in K; cbn in K; lia).
    destruct (common_unit x q r h 0 0 0 K Hk H ltac:(cbn; lia) ltac:(reflexivity)) as (u & J & Y & Hu & HJ & Ex & Ef & _).
    rewrite Ex, Ef, abs_scaled by exact Hu.
    assert (E0 : (Qabs (inject_Z (dy_m x * J) * u) == inject_Z (Z.abs (dy_m x) * J) * u)%Q).
    { rewrite Qabs_Qmult, (Qabs_pos u) by lra. unfold Qabs, inject_Z. rewrite Z.abs_mul, (Z.abs_eq J) by lia. reflexivity. }
    rewrite E0. clear E0.
    assert (E1 : Z.abs (dy_m x * J - Z.sgn (dy_m x) * choose q r h * (2 * h * J)) = Z.abs (Z.abs (dy_m x) * J - choose q r h * (2 * h * J))).
    { destruct (dy_m x); [contradiction|cbn [Z.sgn Z.abs]; lia..]. }
    rewrite E1. clear E1. destruct (choose_spec q r h R H) as (_ & C & _).
    assert (I : 2 ^ 24 * Z.abs (Z.abs (dy_m x) * J - choose q r h * (2 * h * J)) <= Z.abs (dy_m x) * J).
    { replace (Z.abs (dy_m x) * J - choose q r h * (2 * h * J)) with ((2 * h * q + r - 2 * h * choose q r h) * J) by (rewrite A; ring).
      rewrite Z.abs_mul, (Z.abs_eq J) by lia. rewrite A. change (2 ^ 24) with (2 * 2 ^ 23).
      set (e := Z.abs (2 * h * q + r - 2 * h * choose q r h)) in *.
      assert (I : 2 * 2 ^ 23 * e <= 2 * h * q + r) by nia.
      apply (Z.mul_le_mono_nonneg_r _ _ J) in I; lia. }
    apply (le_scaled _ _ u Hu) in I. rewrite inject_Z_mult in I.
    setoid_replace (inject_Z (Z.abs (dy_m x) * J) * u * (1 # 2 ^ 24))%Q with ((1 # 2 ^ 24) * (inject_Z (Z.abs (dy_m x) * J) * u))%Q by ring.
    apply (Qmult_le_l _ _ (inject_Z (2 ^ 24))); [reflexivity|].
    rewrite !Qmult_assoc. setoid_replace (inject_Z (2 ^ 24) * (1 # 2 ^ 24))%Q with 1%Q by reflexivity. rewrite Qmult_1_l. exact I.
Qed.
