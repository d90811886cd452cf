(** * P_FloatId: dividing a binary32 number by 1 gives the number *)
From Coq Require Import SpecFloat.
From Verif Require Import Base M_Float P_Float.
Open Scope Z_scope.

(** The mantissa and exponent of a binary32 number. *)
Definition canon (m e : Z) : Prop := 0 < m /\ e = Z.max (Zdigits2 m + e - 24) (-149).

Lemma digits_unique m d : 1 <= d -> 2 ^ (d - 1) <= m < 2 ^ d -> Zdigits2 m = d.
Proof.
  intros Hd (A & B). assert (M : 0 < m) by (pose proof (Z.pow_pos_nonneg 2 (d - 1)); lia).
  pose proof (Zdigits2_bounds m M) as (C & D). pose proof (Zdigits2_pos m M) as E.
  destruct (Z_lt_le_dec (Zdigits2 m) d) as [X|X].
  - assert (2 ^ Zdigits2 m <= 2 ^ (d - 1)) by (apply Z.pow_le_mono_r; lia). lia.
  - destruct (Z.eq_dec (Zdigits2 m) d) as [|Y]; [assumption|].
    assert (2 ^ d <= 2 ^ (Zdigits2 m - 1)) by (apply Z.pow_le_mono_r; lia). lia.
Qed.

(** Rounding gives canonical numbers. *)
Lemma round_canon sx m e l m' e' : 0 < m -> e <= Z.max (Zdigits2 m + e - 24) (-149) ->
  binary_round_aux 24 128 sx m e l = S754_finite sx m' e' -> canon (Zpos m') e' /\ e' <= 104.
Proof.
  intros Hm He. unfold binary_round_aux, shr_fexp, fexp, emin.
  pose proof (Zdigits2_bounds m Hm) as (B1 & B2). pose proof (Zdigits2_pos m Hm) as B3.
  set (e1 := Z.max (Zdigits2 m + e - 24) (3 - 128 - 24)).
  assert (S1 : exists r, shr (shr_record_of_loc m l) e (e1 - e) = (r, e1) /\ shr_m r = m / 2 ^ (e1 - e)).
  { unfold shr. destruct (e1 - e) as [|p|p] eqn:E; [| |lia].
    - exists (shr_record_of_loc m l). split; [f_equal; lia|]. rewrite shr_m_of_loc. cbn. rewrite Z.div_1_r. reflexivity.
    - eexists. split; [f_equal; lia|]. rewrite iter_shr_m by (rewrite shr_m_of_loc; lia). rewrite shr_m_of_loc. reflexivity. }
  destruct S1 as (r & -> & Hr).
  set (k := e1 - e) in *. assert (Hk : 0 <= k) by lia.
  assert (P0 : 0 < 2 ^ k) by (apply Z.pow_pos_nonneg; lia).
  assert (U : shr_m r < 2 ^ 24).
  { rewrite Hr. apply Z.div_lt_upper_bound; [lia|]. rewrite <- Z.pow_add_r by lia.
    apply Z.lt_le_trans with (2 ^ Zdigits2 m); [lia|]. apply Z.pow_le_mono_r; lia. }
  assert (L : e1 = -149 \/ 2 ^ 23 <= shr_m r).
  { destruct (Z.eq_dec e1 (-149)) as [|N]; [left; assumption|right]. rewrite Hr. apply Z.div_le_lower_bound; [lia|].
    rewrite <- Z.pow_add_r by lia. replace (k + 23) with (Zdigits2 m - 1) by lia. lia. }
  assert (N0 : 0 <= shr_m r) by (rewrite Hr; apply Z.div_pos; lia).
  pose proof (round_nearest_even_bounds (shr_m r) (loc_of_shr_record r)) as (R1 & R2).
  set (m1 := round_nearest_even (shr_m r) (loc_of_shr_record r)) in *. clearbody m1.
  assert (E1 : -149 <= e1) by lia. clearbody e1. clear Hr He B1 B2 B3.
  destruct (Z.eq_dec m1 0) as [Z0|Z0].
  { subst m1. cbn. replace (Z.max (e1 - 24) (-149) - e1) with (Z.max (-24) (-149 - e1)) by lia.
    assert (X : Z.max (-24) (-149 - e1) <= 0) by lia. destruct (Z.max (-24) (-149 - e1)); [discriminate|lia|discriminate]. }
  destruct (Z.eq_dec m1 (2 ^ 24)) as [Z1|Z1].
  { rewrite Z1. change (Zdigits2 (2 ^ 24)) with 25. replace (Z.max (25 + e1 - 24) (3 - 128 - 24) - e1) with 1 by lia.
    cbn -[Z.leb]. destruct (Z.leb_spec (e1 + 1) 104) as [Y|Y]; intros X; [|discriminate X].
    injection X as <- <-. split; [|exact Y]. split; [reflexivity|]. change (Zdigits2 8388608) with 24. lia. }
  assert (D : Zdigits2 m1 <= 24).
  { pose proof (Zdigits2_bounds m1 ltac:(lia)) as (C1 & _). destruct (Z_lt_le_dec 24 (Zdigits2 m1)); [|assumption].
    assert (2 ^ 24 <= 2 ^ (Zdigits2 m1 - 1)) by (apply Z.pow_le_mono_r; lia). lia. }
  assert (X : shr (shr_record_of_loc m1 loc_Exact) e1 (Z.max (Zdigits2 m1 + e1 - 24) (3 - 128 - 24) - e1) =
    (shr_record_of_loc m1 loc_Exact, e1)).
  { unfold shr. destruct (Z.max (Zdigits2 m1 + e1 - 24) (3 - 128 - 24) - e1) eqn:E; [reflexivity|lia|reflexivity]. }
  rewrite X. rewrite shr_m_of_loc. destruct m1 as [|p|p]; [lia| |lia].
  destruct (Z.leb_spec e1 (128 - 24)) as [Y|Y]; intros Q; [|discriminate Q]. injection Q as <- <-.
  split; [|lia]. split; [lia|]. destruct L as [L|L]; [lia|].
  pose proof (digits_unique (Zpos p) 24 ltac:(lia)) as DU. rewrite DU; [lia|].
  pose proof (Zdigits2_bounds (Zpos p) ltac:(lia)) as (_ & C2).
  assert (2 ^ Zdigits2 (Zpos p) <= 2 ^ 24) by (apply Z.pow_le_mono_r; lia). change (24 - 1) with 23. lia.
Qed.

(** Canonical numbers are not changed by rounding. *)
Lemma round_same sx p e : canon (Zpos p) e -> e <= 104 -> binary_round_aux 24 128 sx (Zpos p) e loc_Exact = S754_finite sx p e.
Proof.
  intros (_ & C) H. unfold binary_round_aux, shr_fexp, fexp, emin.
  replace (Z.max (Zdigits2 (Zpos p) + e - 24) (3 - 128 - 24) - e) with 0 by lia. cbn [shr shr_record_of_loc shr_m loc_of_shr_record round_nearest_even].
  replace (Z.max (Zdigits2 (Zpos p) + e - 24) (3 - 128 - 24) - e) with 0 by lia. cbn [shr shr_record_of_loc shr_m].
  destruct (Z.leb_spec e (128 - 24)); [reflexivity|lia].
Qed.

Lemma round_double sx p e : canon (Zpos p) e -> -149 < e -> e <= 104 ->
  binary_round_aux 24 128 sx (Zpos (xO p)) (e - 1) loc_Exact = S754_finite sx p e.
Proof.
  intros (_ & C) L H. unfold binary_round_aux, shr_fexp, fexp, emin.
  assert (D : Zdigits2 (Zpos (xO p)) = Zdigits2 (Zpos p) + 1) by (cbn; lia). rewrite D.
  replace (Z.max (Zdigits2 (Zpos p) + 1 + (e - 1) - 24) (3 - 128 - 24) - (e - 1)) with 1 by lia.
  cbn [shr shr_record_of_loc SpecFloat.iter_pos shr_1 orb shr_m loc_of_shr_record round_nearest_even].
  replace (Z.max (Zdigits2 (Zpos p) + (e - 1 + 1) - 24) (3 - 128 - 24) - (e - 1 + 1)) with 0 by lia.
  cbn [shr shr_record_of_loc shr_m]. replace (e - 1 + 1) with e by lia.
  destruct (Z.leb_spec e (128 - 24)); [reflexivity|lia].
Qed.

Lemma f_of_one : f_of_int 1 = S754_finite false 8388608 (-23).
Proof. vm_compute. reflexivity. Qed.

Lemma div_one_fin sx p e : canon (Zpos p) e -> e <= 104 -> f_div (S754_finite sx p e) (f_of_int 1) = S754_finite sx p e.
Proof.
  intros C H. rewrite f_of_one. unfold f_div, f_prec, f_emax. cbn [SFdiv]. rewrite xorb_false_r.
  unfold SFdiv_core_binary, fexp, emin. change (Zdigits2 8388608) with 24.
  pose proof C as (_ & C'). pose proof (Zdigits2_pos (Zpos p) ltac:(lia)) as D1.
  destruct (Z.eq_dec e (-149)) as [E|E].
  - subst e. replace (Z.min (Z.max (Zdigits2 (Zpos p) + -149 - (24 + -23) - 24) (3 - 128 - 24)) (-149 - -23)) with (-149) by lia.
    replace (-149 - -23 - -149) with 23 by lia. cbn iota. rewrite Z.shiftl_mul_pow2 by lia.
    pose proof (Z_div_mod (Zpos p * 2 ^ 23) 8388608 ltac:(lia)) as DM. destruct (Z.div_eucl (Zpos p * 2 ^ 23) 8388608) as (q & r).
    change (2 ^ 23) with 8388608 in DM. assert (q = Zpos p /\ r = 0) as (-> & ->) by lia.
    change (new_location 8388608 0) with loc_Exact. apply round_same; [exact C|lia].
  - replace (Z.min (Z.max (Zdigits2 (Zpos p) + e - (24 + -23) - 24) (3 - 128 - 24)) (e - -23)) with (e - 1) by lia.
    replace (e - -23 - (e - 1)) with 24 by lia. cbn iota. rewrite Z.shiftl_mul_pow2 by lia.
    pose proof (Z_div_mod (Zpos p * 2 ^ 24) 8388608 ltac:(lia)) as DM. destruct (Z.div_eucl (Zpos p * 2 ^ 24) 8388608) as (q & r).
    change (2 ^ 24) with (2 * 8388608) in DM. assert (q = Zpos (xO p) /\ r = 0) as (-> & ->) by lia.
    change (new_location 8388608 0) with loc_Exact. apply round_double; [exact C|lia|lia].
Qed.

(** The quotient of two ints is a binary32 number. *)
Lemma quotient_canon q d m e : 0 < q <= 2 ^ 32 -> 0 <= d <= 2 ^ 32 ->
  f_div (f_of_int q) (f_of_int d) = S754_finite false m e -> canon (Zpos m) e /\ e <= 104.
Proof.
  intros Hq Hd. destruct (f_of_int_range q Hq) as (m1 & e1 & E1 & A0 & He1). rewrite E1.
  destruct (Z.eq_dec d 0) as [->|Hn]; [discriminate|].
  destruct (f_of_int_range d ltac:(lia)) as (m2 & e2 & E2 & B0 & He2). rewrite E2.
  unfold f_div, f_prec, f_emax. cbn [SFdiv xorb]. unfold SFdiv_core_binary, fexp, emin.
  pose proof (Zdigits2_bounds (Zpos m1) ltac:(lia)) as [A1 A2].
  pose proof (Zdigits2_bounds (Zpos m2) ltac:(lia)) as [B1 B2].
  pose proof (Zdigits2_pos (Zpos m1) ltac:(lia)) as A3.
  pose proof (Zdigits2_pos (Zpos m2) ltac:(lia)) as B3.
  assert (A4 : Zdigits2 (Zpos m1) <= 25) by (apply (Zdigits2_le _ 24); lia).
  assert (B4 : Zdigits2 (Zpos m2) <= 25) by (apply (Zdigits2_le _ 24); lia).
  set (d1 := Zdigits2 (Zpos m1)) in *. set (d2 := Zdigits2 (Zpos m2)) in *.
  set (e' := Z.min (Z.max (d1 + e1 - (d2 + e2) - 24) (3 - 128 - 24)) (e1 - e2)).
  assert (He : e' = Z.min (d1 + e1 - (d2 + e2) - 24) (e1 - e2)) by lia.
  set (s := e1 - e2 - e'). assert (Hs : 0 <= s) by lia. assert (Hs' : d2 - d1 + 24 <= s) by lia.
  assert (Hm' : match s with Zpos _ => Z.shiftl (Zpos m1) s | Z0 => Zpos m1 | Zneg _ => 0 end
                = Zpos m1 * 2 ^ s).
  { destruct s as [|k|k] eqn:Es; [simpl; lia| |lia]. rewrite Z.shiftl_mul_pow2 by lia. reflexivity. }
  rewrite Hm'. clear Hm'.
  assert (Hge : 2 ^ (d1 - 1 + s - d2) <= Zpos m1 * 2 ^ s / Zpos m2).
  { apply Z.div_le_lower_bound; [lia|]. apply Z.le_trans with (2 ^ d2 * 2 ^ (d1 - 1 + s - d2)).
    - apply Z.mul_le_mono_nonneg_r; [apply Z.pow_nonneg; lia|lia].
    - rewrite <- Z.pow_add_r by lia. replace (d2 + (d1 - 1 + s - d2)) with (d1 - 1 + s) by lia.
      rewrite Z.pow_add_r by lia. apply Z.mul_le_mono_nonneg_r; [apply Z.pow_nonneg; lia|lia]. }
  unfold Z.div in Hge. destruct (Z.div_eucl (Zpos m1 * 2 ^ s) (Zpos m2)) as [k r].
  assert (K23 : 2 ^ 23 <= k).
  { apply Z.le_trans with (2 ^ (d1 - 1 + s - d2)); [|exact Hge]. apply Z.pow_le_mono_r; lia. }
  assert (K : 0 < k) by lia.
  apply round_canon; [exact K|].
  pose proof (Zdigits2_bounds k K) as (C1 & C2).
  assert (24 <= Zdigits2 k).
  { destruct (Z_lt_le_dec (Zdigits2 k) 24); [|assumption].
    assert (2 ^ Zdigits2 k <= 2 ^ 23) by (apply Z.pow_le_mono_r; lia). lia. }
  lia.
Qed.

(** The average of one positive quotient of ints is that quotient. *)
Lemma average_of_one q d : 0 <= q <= 2 ^ 32 -> - 2 ^ 32 <= d <= 2 ^ 32 ->
  let x := f_div (f_of_int q) (f_of_int d) in
  f_lt f_zero x = true -> f_div (f_add f_zero x) (f_of_int 1) = x.
Proof.
  intros Hq Hd x Hx.
  assert (Q : 0 < q).
  { destruct (Z.eq_dec q 0) as [->|]; [|lia]. exfalso. unfold x in Hx. rewrite f_of_int_0 in Hx.
    destruct (f_of_int d) as [[|]|[|]| |[|] ? ?]; discriminate Hx. }
  assert (D : 0 <= d).
  { destruct (Z_lt_le_dec d 0); [|assumption]. exfalso. unfold x in Hx. rewrite f_div_int_neg in Hx by lia. discriminate Hx. }
  assert (A : f_add f_zero x = x).
  { destruct x as [[|]|[|]| |[|] m e]; try discriminate Hx; reflexivity. }
  rewrite A. destruct x as [[|]|[|]| |[|] m e] eqn:E; try discriminate Hx; [reflexivity|].
  destruct (quotient_canon q d m e) as (C & L); [lia|lia|exact E|]. apply div_one_fin; assumption.
Qed.

(** Both signs changed. *)
Lemma f_of_int_opp q : f_of_int (- q) = if q =? 0 then f_zero else SFopp (f_of_int q).
Proof.
  destruct q as [|p|p]; [reflexivity| |]; cbn -[binary_round];
    unfold f_of_int, binary_normalize, binary_round; cbn [Z.opp]; destruct (shl_align _ _ _) as (m & e);
    unfold binary_round_aux; destruct (shr_fexp _ _ (Zpos m) e loc_Exact) as (r1 & e1);
    destruct (shr_fexp _ _ _ e1 loc_Exact) as (r2 & e2); destruct (shr_m r2); try reflexivity;
    destruct (e2 <=? _); reflexivity.
Qed.

Lemma f_div_opp x y : f_div (SFopp x) (SFopp y) = f_div x y.
Proof. destruct x as [[|]|[|]| |[|] ? ?]; destruct y as [[|]|[|]| |[|] ? ?]; reflexivity. Qed.

(** The average of one positive quotient of ints is that quotient. *)
Lemma average_of_one_int q d : - 2 ^ 32 <= q <= 2 ^ 32 -> - 2 ^ 32 <= d <= 2 ^ 32 ->
  let x := f_div (f_of_int q) (f_of_int d) in
  f_lt f_zero x = true -> f_div (f_add f_zero x) (f_of_int 1) = x.
Proof.
  intros Hq Hd x Hx. destruct (Z_lt_le_dec q 0) as [N|N]; [|apply average_of_one; auto; lia].
  destruct (Z.eq_dec d 0) as [->|D].
  { exfalso. unfold x in Hx. destruct (f_of_int_neg q ltac:(lia)) as (m & e & E). rewrite E in Hx. discriminate Hx. }
  assert (X : x = f_div (f_of_int (- q)) (f_of_int (- d))).
  { rewrite !f_of_int_opp. destruct (Z.eqb_spec q 0); [lia|]. destruct (Z.eqb_spec d 0); [lia|]. rewrite f_div_opp. reflexivity. }
  rewrite X in *. apply average_of_one; auto; lia.
Qed.
