(** * P_GainOne: when the extension by unitary gain inserts anything *)
From Coq Require Import SpecFloat Sorted.
From Verif Require Import Base Graph Spec M_Float M_Walk M_Gain Spec_Gain
  P_Base P_Walk P_Float P_FloatId P_Gain.
Open Scope nat_scope.

Lemma gain_steps_zero g c p ok k t t' : gain_steps g c p ok k t t' -> length t' = k + length t -> (k = 0 <-> t' = t).
Proof. intros H L. split; [intros ->; inversion H; auto|intros ->; lia]. Qed.

Section One.
Context (g : graph) (c p : list Z) (C P : Z).
Context (Hc : costs_within g c (- C) C) (Hp : prizes_within g p (- P) P).
Context (H3C : (3 * C <= int_max)%Z).

Lemma inserts_iff r t : closed_tour g r 1 t ->
  exists t' a, extension_unitary_gain g t c p = Ok t' /\ average_gain g c p t a /\
    (t' <> t <-> exists v i x, gain_at g c p t v i x /\ f_lt f_zero x = true /\ f_lt a x = true).
Proof.
  intros Ht. destruct (extension_unitary_gain_ok g c p C P Hc Hp H3C r t Ht) as (t' & k & a & E & Hs & Ha & Hn & _ & _ & _ & L & _).
  exists t', a. split; [exact E|]. split; [exact Ha|]. split.
  - intros N. inversion Hs as [s|k' A B v x s Hb Hok HA Hs']; subst.
    + destruct (N eq_refl).
    + exists v, (length A - 1), x. destruct Hb as (G & Z & _). auto.
  - intros (v & i & x & G & Z & X) ->. rewrite (Hn v i x G Z) in X. discriminate X.
Qed.

Lemma single_candidate r t v : closed_tour g r 1 t -> (P <= int_max)%Z ->
  (forall u, u < gn g -> ~ In u t -> u = v) -> extension_unitary_gain g t c p = Ok t.
Proof.
  intros Ht HP U. destruct (inserts_iff r t Ht) as (t' & a & E & Ha & I).
  destruct (list_eq_dec Nat.eq_dec t' t) as [->|N]; [exact E|exfalso].
  apply I in N as (w & i & x & G & Z & X). clear I E t'.
  destruct Ha as (vs & xs & Hs & Hv & F & ->).
  assert (W : w = v) by (apply U; apply G). subst w.
  assert (V : vs = [v]).
  { assert (In v vs) as Iv by (apply Hv; split; apply G).
    assert (A : forall u, In u vs -> u = v) by (intros u Hu; apply Hv in Hu as (? & ?); apply U; auto).
    destruct vs as [|b vs]; [destruct Iv|]. pose proof (A b (or_introl eq_refl)). subst b.
    destruct vs as [|b vs]; [reflexivity|exfalso]. pose proof (A b (or_intror (or_introl eq_refl))). subst b.
    inversion Hs as [|? ? _ Hall]; subst. inversion Hall; subst. lia. }
  subst vs. inversion F as [|? y ? ys My F']; subst. inversion F'; subst. clear F F'.
  destruct My as (M1 & M2). pose proof (M1 i x G) as Y. destruct M2 as [->|(Yp & j & Gy)]; [congruence|].
  cbn [fold_left length] in X. change (Z.of_nat 1) with 1%Z in X.
  assert (Q : f_div (f_add f_zero y) (f_of_int 1) = y); [|rewrite Q in X; congruence].
  destruct Gy as (_ & _ & u & w & _ & _ & e1 & e2 & e3 & c1 & c2 & c3 & q & _ & _ & _ & A1 & A2 & A3 & A4 & ->).
  destruct Hc as (_ & Fc). destruct Hp as (_ & Fp). rewrite Forall_forall in Fc, Fp.
  apply nth_error_In in A1, A2, A3, A4. apply Fc in A1, A2, A3. apply Fp in A4. cbn beta in *.
  unfold int_max in *. apply average_of_one_int; [lia|lia|exact Yp].
Qed.
End One.

(** A best gain is not at an insertion that lowers the cost. *)
Lemma only_profitable_stuck g c p C P : costs_within g c (- C) C -> (3 * C <= int_max)%Z ->
  prizes_within g p 0 P -> (0 <= P)%Z -> (P <= int_max)%Z -> (Z.of_nat (S (gn g)) * P <= int_max)%Z ->
  forall r t, closed_tour g r 1 t ->
  (forall i u w v e1 e2 e3 c1 c2 c3, v < gn g -> ~ In v t ->
     nth_error t i = Some u -> nth_error t (S i) = Some w ->
     step_edge g u v e1 -> step_edge g v w e2 -> step_edge g u w e3 ->
     nth_error c e1 = Some c1 -> nth_error c e2 = Some c2 -> nth_error c e3 = Some c3 ->
     (c1 + c2 - c3 < 0)%Z) ->
  extension_unitary_gain g t c p = Ok t /\
  forall quota, extension_until_prize_feasible g t c p quota = Ok t.
Proof.
  intros Hc H3 Hp P0 P1 P2 r t Ht N.
  assert (Hp' : prizes_within g p (- P) P).
  { destruct Hp as [Hl Hf]. split; auto. eapply Forall_impl; [|exact Hf]. simpl. lia. }
  assert (Z : forall v i x, gain_at g c p t v i x -> f_lt f_zero x = false).
  { intros v i x (Hv & Hn & u & w & Hu & Hw & e1 & e2 & e3 & c1 & c2 & c3 & q & S1 & S2 & S3 & A1 & A2 & A3 & A4 & ->).
    pose proof (N i u w v e1 e2 e3 c1 c2 c3 Hv Hn Hu Hw S1 S2 S3 A1 A2 A3) as L.
    destruct Hc as (_ & Fc). destruct Hp as (_ & Fp). rewrite Forall_forall in Fc, Fp.
    apply nth_error_In in A1, A2, A3, A4. apply Fc in A1, A2, A3. apply Fp in A4. cbn beta in *.
    unfold int_max in *. apply f_div_int_neg; lia. }
  split.
  - destruct (inserts_iff g c p C P Hc Hp' H3 r t Ht) as (t' & a & E & _ & I).
    destruct (list_eq_dec Nat.eq_dec t' t) as [->|D]; [exact E|exfalso].
    apply I in D as (v & i & x & G & X & _). rewrite (Z v i x G) in X. discriminate X.
  - intros quota. destruct (extension_until_ok g c p C P Hc Hp' H3 P0 P2 r t quota Ht) as (t' & k & E & Hs & _).
    inversion Hs as [s|k' A B v x s Hb Hok HA Hs']; subst; [exact E|exfalso].
    destruct Hb as (G & X & _). rewrite (Z _ _ _ G) in X. discriminate X.
Qed.
