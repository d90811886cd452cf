From Verif Require Import Base P_Base M_Lab Spec_Lab P_Lab M_Slurm Spec_Slurm.
From Coq Require Import Permutation.
Open Scope Z_scope.

(** ** The hours of the script *)

Lemma frac_is x : 0 < snd (frac x) /\ fst x * 2 ^ Z.max 0 (snd x) * snd (frac x) = fst (frac x) * 2 ^ Z.max 0 (- snd x).
Proof.
  destruct x as (m, e). unfold frac. destruct (Z.leb_spec e 0); cbn [fst snd].
  - split; [apply pow_pos; lia|]. rewrite Z.max_l by lia. rewrite Z.max_r by lia. change (2 ^ 0) with 1. ring.
  - split; [lia|]. rewrite Z.max_r by lia. rewrite Z.max_l by lia. change (2 ^ 0) with 1. ring.
Qed.

Lemma is_fraction_frac x a b : is_fraction x a b ->
  0 < b /\ 0 < snd (frac x) /\ fst (frac x) * b = a * snd (frac x).
Proof.
  intros (B & E). destruct (frac_is x) as (D & F). split; [exact B|]. split; [exact D|].
  set (p := 2 ^ Z.max 0 (snd x)) in *. set (q := 2 ^ Z.max 0 (- snd x)) in *.
  assert (Q : 0 < q) by (apply pow_pos; lia).
  apply (Z.mul_reg_r _ _ q); [lia|].
  transitivity (fst x * p * snd (frac x) * b); [rewrite F; ring|].
  transitivity (fst x * p * b * snd (frac x)); [ring|]. rewrite E. ring.
Qed.

Lemma ceil_spec x : 0 < snd (frac x) ->
  (py_ceil x - 1) * snd (frac x) < fst (frac x) <= py_ceil x * snd (frac x).
Proof.
  intros D. unfold py_ceil. destruct (frac x) as (a, b). cbn [fst snd] in *.
  pose proof (Z.div_mod (- a) b ltac:(lia)). pose proof (Z.mod_pos_bound (- a) b D). nia.
Qed.

(* two roundings *)
Lemma two_roundings u a b B x1 y1 x2 y2 k : 1 < u -> 0 < a -> 0 < b -> 0 < B -> 0 < y1 -> 0 < y2 ->
  u * Z.abs (x1 * (b * 3600) - a * y1) <= a * y1 -> u * Z.abs (x2 * y1 - B * x1 * y2) <= B * x1 * y2 ->
  (k - 1) * y2 < x2 <= k * y2 ->
  (u - 1) * (u - 1) * (a * B) <= u * u * (3600 * b * k) /\
  u * u * (3600 * b * (k - 1)) <= (u + 1) * (u + 1) * (a * B).
Proof.
  intros U A Bb BB Y1 Y2 R1 R2 (K1 & K2).
  assert (L1 : (u - 1) * (a * y1) <= u * (3600 * b * x1)) by nia.
  assert (H1 : u * (3600 * b * x1) <= (u + 1) * (a * y1)) by nia.
  assert (L2 : (u - 1) * (B * x1 * y2) <= u * (x2 * y1)) by nia.
  assert (H2 : u * (x2 * y1) <= (u + 1) * (B * x1 * y2)) by nia.
  assert (X1 : 0 < x1).
  { assert (0 < (u - 1) * (a * y1)) by (apply Z.mul_pos_pos; nia). nia. }
  assert (YY : 0 < y1 * y2) by nia.
  split.
  - apply (Z.mul_le_mono_pos_r _ _ (y1 * y2) YY).
    transitivity (u * (3600 * b) * ((u - 1) * (B * x1 * y2))).
    { replace ((u - 1) * (u - 1) * (a * B) * (y1 * y2)) with ((u - 1) * (a * y1) * ((u - 1) * (B * y2))) by ring.
      replace (u * (3600 * b) * ((u - 1) * (B * x1 * y2))) with (u * (3600 * b * x1) * ((u - 1) * (B * y2))) by ring.
      apply Z.mul_le_mono_nonneg_r; [nia|exact L1]. }
    transitivity (u * (3600 * b) * (u * (x2 * y1))); [apply Z.mul_le_mono_nonneg_l; [nia|exact L2]|].
    replace (u * u * (3600 * b * k) * (y1 * y2)) with (u * (3600 * b) * (u * (k * y2 * y1))) by ring.
    apply Z.mul_le_mono_nonneg_l; [nia|]. apply Z.mul_le_mono_nonneg_l; [lia|].
    apply Z.mul_le_mono_nonneg_r; lia.
  - apply (Z.mul_le_mono_pos_r _ _ (y1 * y2) YY).
    transitivity (u * (3600 * b) * (u * (x2 * y1))).
    { replace (u * u * (3600 * b * (k - 1)) * (y1 * y2)) with (u * (3600 * b) * (u * ((k - 1) * y2 * y1))) by ring.
      apply Z.mul_le_mono_nonneg_l; [nia|]. apply Z.mul_le_mono_nonneg_l; [lia|].
      apply Z.mul_le_mono_nonneg_r; lia. }
    transitivity (u * (3600 * b) * ((u + 1) * (B * x1 * y2))); [apply Z.mul_le_mono_nonneg_l; [nia|exact H2]|].
    replace (u * (3600 * b) * ((u + 1) * (B * x1 * y2))) with (u * (3600 * b * x1) * ((u + 1) * (B * y2))) by ring.
    replace ((u + 1) * (u + 1) * (a * B) * (y1 * y2)) with ((u + 1) * (a * y1) * ((u + 1) * (B * y2))) by ring.
    apply Z.mul_le_mono_nonneg_r; [nia|exact H1].
Qed.

Lemma cancel_abs u p q f r : 0 < f -> u * Z.abs ((p - q) * f) <= r * f -> u * Z.abs (p - q) <= r.
Proof.
  intros F H. rewrite Z.abs_mul, (Z.abs_eq f) in H by lia. apply (Z.mul_le_mono_pos_r _ _ f F). lia.
Qed.

Lemma expected_ok B T : 0 < B < 2 ^ 53 -> 0 <= fst T ->
  exists k, expected_cpu_time B T = Ok k /\ 0 <= k /\
    (2 ^ 53 - 1) * (2 ^ 53 - 1) * (fst (frac T) * B) <= 2 ^ 53 * 2 ^ 53 * (3600 * snd (frac T) * k) /\
    2 ^ 53 * 2 ^ 53 * (3600 * snd (frac T) * (k - 1)) <= (2 ^ 53 + 1) * (2 ^ 53 + 1) * (fst (frac T) * B).
Proof.
  intros (B0 & BL) T0. unfold expected_cpu_time, py_div. destruct (frac_is T) as (D & F).
  assert (A0 : 0 <= fst (frac T)).
  { assert (0 < 2 ^ Z.max 0 (- snd T)) by (apply pow_pos; lia).
    assert (0 < 2 ^ Z.max 0 (snd T)) by (apply pow_pos; lia). nia. }
  destruct (frac T) as (a, b). cbn [fst snd] in *. clear F T0.
  pose proof (py_float_ok 3600 ltac:(lia) ltac:(lia)) as H. destruct (frac (py_float 3600)) as (c, d).
  destruct H as (PD & ->).
  destruct (Z.eqb_spec (3600 * d) 0); [lia|]. destruct (Z.ltb_spec B 0); [lia|].
  pose proof (py_float_ok B B0 BL) as HB.
  destruct (Z.eqb_spec a 0) as [->|NZ]; cbn [bind].
  - eexists. split; [reflexivity|].
    assert (E : py_mul (py_float B) (0, 0) = (0, 0)).
    { unfold py_mul. destruct (frac (py_float B)) as (x, y). cbn [frac Z.leb Z.compare]. rewrite Z.mul_0_r. reflexivity. }
    rewrite E. change (py_ceil (0, 0)) with 0. nia.
  - pose proof (round53_ok (a * d) (b * (3600 * d)) ltac:(nia) ltac:(nia)) as R.
    eexists. split; [reflexivity|]. unfold py_mul.
    destruct (frac (py_float B)) as (x, f). destruct HB as (F & ->).
    destruct (frac (round53 (a * d) (b * (3600 * d)))) as (x1, y1). destruct R as (Y1 & R1 & _).
    assert (R1' : 2 ^ 53 * Z.abs (x1 * (b * 3600) - a * y1) <= a * y1).
    { apply (cancel_abs _ _ _ d _ PD).
      replace ((x1 * (b * 3600) - a * y1) * d) with (x1 * (b * (3600 * d)) - a * d * y1) by ring.
      replace (a * y1 * d) with (a * d * y1) by ring. exact R1. }
    assert (X1 : 0 < x1).
    { assert (0 < a * y1) by nia. nia. }
    destruct (Z.eqb_spec (B * f * x1) 0); [nia|].
    pose proof (round53_ok (B * f * x1) (f * y1) ltac:(nia) ltac:(nia)) as R2.
    pose proof (ceil_spec (round53 (B * f * x1) (f * y1))) as C.
    set (k := py_ceil (round53 (B * f * x1) (f * y1))) in *.
    destruct (frac (round53 (B * f * x1) (f * y1))) as (x2, y2). cbn [fst snd] in C.
    destruct R2 as (Y2 & R2 & _). specialize (C Y2).
    assert (R2' : 2 ^ 53 * Z.abs (x2 * y1 - B * x1 * y2) <= B * x1 * y2).
    { apply (cancel_abs _ _ _ f _ F).
      replace ((x2 * y1 - B * x1 * y2) * f) with (x2 * (f * y1) - B * f * x1 * y2) by ring.
      replace (B * x1 * y2 * f) with (B * f * x1 * y2) by ring. exact R2. }
    assert (X2 : 0 < x2).
    { assert (0 < B * x1 * y2) by (apply Z.mul_pos_pos; [apply Z.mul_pos_pos; assumption|assumption]). nia. }
    split; [nia|].
    exact (two_roundings (2 ^ 53) a b B x1 y1 x2 y2 k ltac:(lia) ltac:(lia) D B0 Y1 Y2 R1' R2' C).
Qed.

Lemma hours_ok B T a b : 0 < B < 2 ^ 53 -> 0 <= fst T -> is_fraction T a b ->
  exists k, expected_cpu_time B T = Ok k /\
    1 <= Z.min (k + 1) two_days_in_hours /\
    (Z.min (k + 1) two_days_in_hours < two_days_in_hours -> B * a <= 3600 * Z.min (k + 1) two_days_in_hours * b) /\
    3600 * (Z.min (k + 1) two_days_in_hours - 3) * b <= B * a.
Proof.
  intros BB T0 FR. destruct (is_fraction_frac T a b FR) as (Pb & PD & E).
  destruct (expected_ok B T BB T0) as (k & EK & K0 & U & L). exists k. split; [exact EK|].
  assert (C0 : 0 <= fst (frac T)).
  { destruct (frac_is T) as (_ & F). assert (0 < 2 ^ Z.max 0 (- snd T)) by (apply pow_pos; lia).
    assert (0 < 2 ^ Z.max 0 (snd T)) by (apply pow_pos; lia). clear - F H H0 T0 PD. nia. }
  destruct (frac T) as (c, d). cbn [fst snd] in *. unfold two_days_in_hours.
  assert (A0 : 0 <= B * a).
  { clear - C0 Pb PD E BB. assert (0 <= a) by nia. nia. }
  assert (U' : (2 ^ 53 - 1) * (2 ^ 53 - 1) * (B * a) <= 2 ^ 53 * 2 ^ 53 * (3600 * b * k)).
  { apply (Z.mul_le_mono_pos_r _ _ d PD).
    replace ((2 ^ 53 - 1) * (2 ^ 53 - 1) * (B * a) * d) with ((2 ^ 53 - 1) * (2 ^ 53 - 1) * B * (a * d)) by ring.
    rewrite <- E.
    replace ((2 ^ 53 - 1) * (2 ^ 53 - 1) * B * (c * b)) with ((2 ^ 53 - 1) * (2 ^ 53 - 1) * (c * B) * b) by ring.
    replace (2 ^ 53 * 2 ^ 53 * (3600 * b * k) * d) with (2 ^ 53 * 2 ^ 53 * (3600 * d * k) * b) by ring.
    apply Z.mul_le_mono_nonneg_r; [lia|exact U]. }
  assert (L' : 2 ^ 53 * 2 ^ 53 * (3600 * b * (k - 1)) <= (2 ^ 53 + 1) * (2 ^ 53 + 1) * (B * a)).
  { apply (Z.mul_le_mono_pos_r _ _ d PD).
    replace ((2 ^ 53 + 1) * (2 ^ 53 + 1) * (B * a) * d) with ((2 ^ 53 + 1) * (2 ^ 53 + 1) * B * (a * d)) by ring.
    rewrite <- E.
    replace ((2 ^ 53 + 1) * (2 ^ 53 + 1) * B * (c * b)) with ((2 ^ 53 + 1) * (2 ^ 53 + 1) * (c * B) * b) by ring.
    replace (2 ^ 53 * 2 ^ 53 * (3600 * b * (k - 1)) * d) with (2 ^ 53 * 2 ^ 53 * (3600 * d * (k - 1)) * b) by ring.
    apply Z.mul_le_mono_nonneg_r; [lia|exact L]. }
  clear U L. set (t := B * a) in *. split; [lia|]. split.
  - intros M. rewrite Z.min_l by lia. assert (KS : k + 1 < 2 * 24 * 3600) by lia.
    assert (X : 2 ^ 53 * 2 ^ 53 * k <= (2 ^ 53 - 1) * (2 ^ 53 - 1) * (k + 1)) by lia.
    apply (Z.mul_le_mono_pos_l _ _ ((2 ^ 53 - 1) * (2 ^ 53 - 1))); [lia|].
    transitivity (2 ^ 53 * 2 ^ 53 * k * (3600 * b)); [lia|].
    replace ((2 ^ 53 - 1) * (2 ^ 53 - 1) * (3600 * (k + 1) * b)) with ((2 ^ 53 - 1) * (2 ^ 53 - 1) * (k + 1) * (3600 * b)) by ring.
    apply Z.mul_le_mono_nonneg_r; [lia|exact X].
  - set (h := Z.min (k + 1) (2 * 24 * 3600) - 3). assert (H1 : h + 1 <= k - 1) by lia. assert (H2 : h <= 172797) by lia.
    destruct (Z.le_gt_cases h 0) as [N|N]; [nia|].
    assert (X : (2 ^ 53 + 1) * (2 ^ 53 + 1) * h <= 2 ^ 53 * 2 ^ 53 * (k - 1)) by lia.
    apply (Z.mul_le_mono_pos_l _ _ ((2 ^ 53 + 1) * (2 ^ 53 + 1))); [lia|].
    transitivity (2 ^ 53 * 2 ^ 53 * (k - 1) * (3600 * b)); [|lia].
    replace ((2 ^ 53 + 1) * (2 ^ 53 + 1) * (3600 * h * b)) with ((2 ^ 53 + 1) * (2 ^ 53 + 1) * h * (3600 * b)) by ring.
    apply Z.mul_le_mono_nonneg_r; [lia|exact X].
Qed.

(** ** The script *)

Open Scope nat_scope.

Lemma signed_pos n b : (0 < b)%Z -> get_nbatches_signed n b = get_nbatches n b.
Proof. intros B. unfold get_nbatches_signed. destruct (Z.ltb_spec b 0); [lia|reflexivity]. Qed.

Lemma slurm_ok D B T only ow vials a b : read_experiment_file D only = Ok vials ->
  (Z.of_nat (length vials) < 2 ^ 53)%Z -> (0 < B < 2 ^ 53)%Z -> (0 <= fst T)%Z -> is_fraction T a b ->
  ed_script D = None \/ ow = true ->
  exists s, slurm D B T only ow = Ok (mkDir (ed_vials D) (ed_missing D) (ed_results D) (Some s)) /\
    is_ceiling (Z.of_nat (length vials)) B (ss_last s + 1) /\ ss_size s = B /\ ss_missing s = only /\
    (1 <= ss_hours s <= 172800)%Z /\
    (ss_hours s < 172800 -> B * a <= 3600 * ss_hours s * b)%Z /\ (3600 * (ss_hours s - 3) * b <= B * a)%Z.
Proof.
  intros R L (B0 & BL) T0 F O. unfold slurm. rewrite R. cbn [bind].
  destruct (get_nbatches_ok (Z.of_nat (length vials)) B ltac:(lia) L B0 BL) as (n & En & Cn).
  rewrite signed_pos, En by exact B0. cbn [bind].
  destruct (hours_ok B T a b (conj B0 BL) T0 F) as (k & Ek & H1 & H2 & H3). rewrite Ek. cbn [bind].
  set (h := Z.min (k + 1) two_days_in_hours) in *.
  assert (HC : (h <= 172800)%Z) by (unfold h, two_days_in_hours; lia).
  exists (mkScript h (n - 1) B only). split; [destruct (ed_script D), ow; try reflexivity; destruct O; discriminate|].
  cbn. replace (n - 1 + 1)%Z with n by lia. split; [exact Cn|]. split; [reflexivity|]. split; [reflexivity|].
  split; [lia|]. split; [exact H2|exact H3].
Qed.

(** ** The tasks *)

Definition chunk (b : Z) (vials : list vial) (k : nat) : list vial := firstn (Z.to_nat b) (skipn (k * Z.to_nat b) vials).

Lemma tasks_concat load solve s vials tasks : (0 < ss_size s)%Z ->
  (forall k, In k tasks -> (Z.of_nat k * ss_size s < Z.of_nat (length vials))%Z) ->
  forall D, read_experiment_file D (ss_missing s) = Ok vials ->
  run_tasks load solve s tasks D =
  do '(_, st) <- run_experiment_from_vial_list load solve (concat (map (chunk (ss_size s) vials) tasks)) (ed_results D);
  Ok (mkDir (ed_vials D) (ed_missing D) st (ed_script D)).
Proof.
  intros B. unfold run_tasks. induction tasks as [|k l IH]; intros H D R; cbn [foldM map concat].
  - destruct D. reflexivity.
  - unfold run_task at 1, batch_command. rewrite R. cbn [bind]. unfold run_batch, batch_vials. cbn [bind].
    rewrite py_slice_chunk by (auto; apply H; cbn; auto). fold (chunk (ss_size s) vials k).
    rewrite run_list_app.
    destruct (run_experiment_from_vial_list load solve (chunk (ss_size s) vials k) (ed_results D)) as [(r, st)|e|u|];
      cbn [bind]; try reflexivity.
    rewrite IH; [|intros k' I; apply H; cbn; auto|].
    + cbn [ed_results ed_vials ed_missing ed_script].
      destruct (run_experiment_from_vial_list load solve (concat _) st) as [(r', st')|e|u|]; reflexivity.
    + unfold read_experiment_file in *. cbn [ed_vials ed_missing]. exact R.
Qed.

Lemma chunks_perm b vials N tasks : (0 < b)%Z -> is_ceiling (Z.of_nat (length vials)) b N ->
  Permutation tasks (seq 0 (Z.to_nat N)) ->
  (forall k, In k tasks -> (Z.of_nat k * b < Z.of_nat (length vials))%Z) /\
  Permutation (concat (map (chunk b vials) tasks)) vials.
Proof.
  intros B (C1 & C2) P. split.
  - intros k I. apply (Permutation_in _ P) in I. apply in_seq in I. assert (Z.of_nat k <= N - 1)%Z by lia. nia.
  - rewrite <- flat_map_concat_map. transitivity (flat_map (chunk b vials) (seq 0 (Z.to_nat N))).
    + apply Permutation_flat_map. exact P.
    + rewrite flat_map_concat_map. unfold chunk. rewrite concat_chunks. rewrite firstn_all2; [reflexivity|]. nia.
Qed.

Lemma tasks_batches s vials tasks st : (0 < ss_size s)%Z ->
  (forall k, In k tasks -> (Z.of_nat k * ss_size s < Z.of_nat (length vials))%Z) ->
  mapM (fun k => batch_vials st vials (Z.of_nat k * ss_size s) (ss_size s) false) tasks =
  Ok (map (chunk (ss_size s) vials) tasks).
Proof.
  intros B H. induction tasks as [|k l IH]; [reflexivity|]. cbn [mapM map].
  unfold batch_vials at 1. cbn [bind]. rewrite py_slice_chunk by (auto; apply H; cbn; auto).
  rewrite IH by (intros; apply H; cbn; auto). reflexivity.
Qed.

Lemma ran_perm solve a b st st' : Permutation a b -> ran solve a st st' -> ran solve b st st'.
Proof.
  intros P (R1 & R2). split.
  - intros v I. apply R1. apply (Permutation_in _ (Permutation_sym P)). exact I.
  - intros u U. apply R2. intros I. apply U. apply (Permutation_in _ (Permutation_map v_uuid P)). exact I.
Qed.

Lemma tasks_ok load solve s vials tasks D : read_experiment_file D (ss_missing s) = Ok vials ->
  (0 < ss_size s)%Z -> is_ceiling (Z.of_nat (length vials)) (ss_size s) (ss_last s + 1) ->
  (forall v, In v vials -> load v = Ok tt) -> NoDup (map v_uuid vials) ->
  Permutation tasks (seq 0 (Z.to_nat (ss_last s + 1))) ->
  (exists bs, mapM (fun k => batch_vials (ed_results D) vials (Z.of_nat k * ss_size s) (ss_size s) false) tasks = Ok bs /\
     Permutation (concat bs) vials) /\
  exists st, run_tasks load solve s tasks D = Ok (mkDir (ed_vials D) (ed_missing D) st (ed_script D)) /\
    ran solve vials (ed_results D) st.
Proof.
  intros R B C LD N P. destruct (chunks_perm _ _ _ _ B C P) as (H & PC). split.
  - eexists. split; [apply tasks_batches; assumption|exact PC].
  - rewrite (tasks_concat load solve s vials tasks B H D R).
    destruct (run_list_ok load solve (concat (map (chunk (ss_size s) vials) tasks))) with (st := ed_results D)
      as (r & st & E & _ & _ & S1 & S2).
    { intros v I. apply LD. apply (Permutation_in _ PC). exact I. }
    { apply (Permutation_NoDup (Permutation_sym (Permutation_map v_uuid PC))). exact N. }
    rewrite E. cbn [bind]. exists st. split; [reflexivity|]. apply (ran_perm _ _ _ _ _ PC). split; assumption.
Qed.

Lemma ceiling_tasks s (vials : list vial) : (0 < ss_size s)%Z -> is_ceiling (Z.of_nat (length vials)) (ss_size s) (ss_last s + 1) ->
  vials <> [] -> sbatch_tasks s = Some (seq 0 (Z.to_nat (ss_last s + 1))).
Proof.
  intros B (C1 & C2) NE. unfold sbatch_tasks. destruct (Z.ltb_spec (ss_last s) 0); [|reflexivity].
  destruct vials; [contradiction|]. cbn [length] in *. nia.
Qed.

(** ** Missing vials, end to end *)

Lemma uuid_inj (vials : list vial) : NoDup (map v_uuid vials) ->
  forall v w, In v vials -> In w vials -> v_uuid v = v_uuid w -> v = w.
Proof.
  induction vials as [|x l IH]; intros N v w; [intros []|]. cbn in N. inversion N as [|? ? NI ND]; subst.
  intros [<-|I] [<-|J] EQ; auto.
  - destruct NI. rewrite EQ. apply in_map. exact J.
  - destruct NI. rewrite <- EQ. apply in_map. exact I.
Qed.

Lemma without_dec st v : without_result st v \/ ~ without_result st v.
Proof. unfold without_result. destruct (st (v_uuid v)); auto; right; intros [|]; discriminate. Qed.

Lemma missing_ran solve vials m st st' : NoDup (map v_uuid vials) ->
  (forall v, In v vials -> st (v_uuid v) <> BadFields) -> selected (without_result st) vials m -> ran solve m st st' ->
  (forall v, In v vials -> ~ without_result st v -> st' (v_uuid v) = st (v_uuid v)) /\
  exists m', missing_vials st' vials = Ok m' /\
    selected (fun v => without_result st v /\ solve v = None) vials m'.
Proof.
  intros N BF S (S1 & S2).
  assert (KEEP : forall v, In v vials -> ~ without_result st v -> st' (v_uuid v) = st (v_uuid v)).
  { intros v I W. apply S2. intros J. apply in_map_iff in J. destruct J as (w & EQ & J).
    apply (selected_In _ _ _ S) in J. destruct J as (J & W'). rewrite (uuid_inj vials N w v J I EQ) in W'. contradiction. }
  split; [exact KEEP|].
  assert (NEW : forall v, In v vials -> without_result st' v <-> without_result st v /\ solve v = None).
  { intros v I. destruct (without_dec st v) as [W|W].
    - assert (J : In v m) by (apply (selected_In _ _ _ S); auto). specialize (S1 v J).
      unfold without_result at 1. rewrite S1. destruct (solve v).
      + split; [intros [|]; discriminate|intros (_ & X); discriminate].
      + split; [intros _; auto|intros _; exact W].
    - unfold without_result at 1. rewrite (KEEP v I W). split; [intros X; destruct (W X)|tauto]. }
  assert (BF' : forall v, In v vials -> st' (v_uuid v) <> BadFields).
  { intros v I. destruct (without_dec st v) as [W|W].
    - assert (J : In v m) by (apply (selected_In _ _ _ S); auto). rewrite (S1 v J). destruct (solve v); [discriminate|auto].
    - rewrite (KEEP v I W). auto. }
  destruct (missing_ok st' vials BF') as (m' & E' & S'). exists m'. split; [exact E'|].
  clear - S' NEW. induction S' as [|x l sub X S IH|x l sub X S IH].
  - constructor.
  - constructor; [apply NEW; cbn; auto|]. apply IH. intros v I. apply NEW. cbn. auto.
  - apply sel_drop; [intros H; apply X; apply NEW; cbn; auto|]. apply IH. intros v I. apply NEW. cbn. auto.
Qed.

Lemma missing_command_ok D vials : ed_vials D = Some vials ->
  (forall v, In v vials -> ed_results D (v_uuid v) <> BadFields) ->
  exists m, missing_command D = Ok (mkDir (ed_vials D) (Some m) (ed_results D) (ed_script D)) /\
    selected (without_result (ed_results D)) vials m.
Proof.
  intros E BF. unfold missing_command, read_experiment_file. rewrite E. cbn [bind].
  destruct (missing_ok _ _ BF) as (m & Em & S). rewrite Em. exists m. split; [reflexivity|exact S].
Qed.

Lemma rerun_tasks load solve D vials m B T ow : ed_vials D = Some vials -> NoDup (map v_uuid vials) ->
  (forall v, In v vials -> load v = Ok tt) -> (forall v, In v vials -> ed_results D (v_uuid v) <> BadFields) ->
  (Z.of_nat (length vials) < 2 ^ 53)%Z -> (0 < B < 2 ^ 53)%Z -> (0 <= fst T)%Z ->
  ed_script D = None \/ ow = true -> selected (without_result (ed_results D)) vials m -> m <> [] ->
  exists D1 D2 s tasks, missing_command D = Ok D1 /\ slurm D1 B T true ow = Ok D2 /\ ed_script D2 = Some s /\
    sbatch_tasks s = Some tasks /\
    forall order, Permutation order tasks -> exists D3 m', run_tasks load solve s order D2 = Ok D3 /\
      ran solve m (ed_results D) (ed_results D3) /\
      (forall v, In v vials -> ~ without_result (ed_results D) v -> ed_results D3 (v_uuid v) = ed_results D (v_uuid v)) /\
      missing_vials (ed_results D3) vials = Ok m' /\
      selected (fun v => without_result (ed_results D) v /\ solve v = None) vials m'.
Proof.
  intros E N LD BF L BB T0 O S NE. destruct (missing_command_ok D vials E BF) as (m0 & Em & S0).
  assert (m0 = m).
  { clear - S S0. revert m S. induction S0 as [|x l sub X S0 IH|x l sub X S0 IH]; intros m S; inversion S; subst;
      try contradiction; [reflexivity|f_equal; auto|auto]. }
  subst m0. pose proof (selected_length _ _ _ S) as LL.
  set (D1 := mkDir (ed_vials D) (Some m) (ed_results D) (ed_script D)) in *.
  assert (F : is_fraction T (fst (frac T)) (snd (frac T))).
  { destruct (frac_is T) as (F1 & F2). split; assumption. }
  destruct (slurm_ok D1 B T true ow m _ _ eq_refl ltac:(lia) BB T0 F O) as (s & Es & C & SS & SM & _).
  exists D1. eexists. exists s, (seq 0 (Z.to_nat (ss_last s + 1))). split; [exact Em|]. split; [exact Es|].
  split; [reflexivity|]. rewrite <- SS in C. assert (B' : (0 < ss_size s)%Z) by lia.
  split; [apply (ceiling_tasks s m B' C NE)|]. intros order P.
  destruct (tasks_ok load solve s m order (mkDir (ed_vials D1) (ed_missing D1) (ed_results D1) (Some s)))
    as (_ & st & Er & Rn).
  { rewrite SM. reflexivity. }
  { exact B'. } { exact C. }
  { intros v I. apply LD. apply (selected_In _ _ _ S). exact I. }
  { eapply selected_NoDup; eauto. } { exact P. }
  destruct (missing_ran solve vials m _ _ N BF S Rn) as (K & m' & Em' & Sm').
  eexists. exists m'. split; [exact Er|]. cbn [ed_results]. split; [exact Rn|]. split; [exact K|]. split; assumption.
Qed.

(** ** One vial *)

Lemma last_match u (vials : list vial) : forall acc,
  (exists v, last_with (fun v => v_uuid v = u) vials v /\
     fold_left (fun found v => if Nat.eqb (v_uuid v) u then Some v else found) vials acc = Some v) \/
  ((forall v, In v vials -> v_uuid v <> u) /\
     fold_left (fun found v => if Nat.eqb (v_uuid v) u then Some v else found) vials acc = acc).
Proof.
  induction vials as [|x l IH]; intros acc; [right; split; [intros v []|reflexivity]|]. cbn [fold_left].
  destruct (IH (if Nat.eqb (v_uuid x) u then Some x else acc)) as [(v & (l1 & l2 & -> & P & Q) & E)|(A & E)].
  - left. exists v. split; [|exact E]. exists (x :: l1), l2. auto.
  - rewrite E. destruct (Nat.eqb_spec (v_uuid x) u) as [U|U].
    + left. exists x. split; [|reflexivity]. exists [], l. auto.
    + right. split; [|reflexivity]. intros v [<-|I]; auto.
Qed.

Lemma last_with_unique {A} (P : A -> Prop) l x y : last_with P l x -> last_with P l y -> x = y.
Proof.
  intros (a & b & -> & Px & Qx) (c & d & E & Py & Qy). revert c E.
  induction a as [|z a IH]; intros [|w c] E; cbn in E; injection E as E1 E2.
  - exact E1.
  - subst. destruct (Qx y); [apply in_or_app; cbn; auto|exact Py].
  - subst. destruct (Qy x); [apply in_or_app; cbn; auto|exact Px].
  - exact (IH c E2).
Qed.

Lemma vial_ok load solve D u vials v p : ed_vials D = Some vials -> last_with (fun w => v_uuid w = u) vials v ->
  load v = Ok tt -> solve v = Some p ->
  exists st, vial_command load solve D u = Ok ((u, p), mkDir (ed_vials D) (ed_missing D) st (ed_script D)) /\
    st u = ResultFile p /\ forall w, w <> u -> st w = ed_results D w.
Proof.
  intros E L LD SV. unfold vial_command, read_experiment_file. rewrite E. cbn [bind].
  destruct (last_match u vials None) as [(w & Lw & ->)|(A & _)].
  - rewrite (last_with_unique _ _ _ _ Lw L). unfold run_experiment_from_vial_list. cbn [foldM]. rewrite LD. cbn [bind].
    rewrite SV. cbn [bind app]. destruct L as (l1 & l2 & _ & U & _). rewrite U.
    eexists. split; [reflexivity|]. unfold write_result. rewrite Nat.eqb_refl. split; [reflexivity|].
    intros w' W. destruct (Nat.eqb_spec w' u); [contradiction|reflexivity].
  - destruct L as (l1 & l2 & -> & U & _). destruct (A v); [apply in_or_app; cbn; auto|exact U].
Qed.

Lemma vial_fails load solve D u vials v : ed_vials D = Some vials -> last_with (fun w => v_uuid w = u) vials v ->
  load v = Ok tt -> solve v = None -> vial_command load solve D u = Throw IndexErrorPy.
Proof.
  intros E L LD SV. unfold vial_command, read_experiment_file. rewrite E. cbn [bind].
  destruct (last_match u vials None) as [(w & Lw & ->)|(A & _)].
  - rewrite (last_with_unique _ _ _ _ Lw L). unfold run_experiment_from_vial_list. cbn [foldM]. rewrite LD. cbn [bind].
    rewrite SV. reflexivity.
  - destruct L as (l1 & l2 & -> & U & _). destruct (A v); [apply in_or_app; cbn; auto|exact U].
Qed.

Lemma vial_absent load solve D u vials : ed_vials D = Some vials -> ~ In u (map v_uuid vials) ->
  vial_command load solve D u = Throw ValueErrorPy.
Proof.
  intros E U. unfold vial_command, read_experiment_file. rewrite E. cbn [bind].
  destruct (last_match u vials None) as [(w & (l1 & l2 & -> & P & _) & _)|(_ & ->)]; [|reflexivity].
  destruct U. rewrite <- P. apply in_map. apply in_or_app. cbn. auto.
Qed.
