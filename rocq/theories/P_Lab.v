From Verif Require Import Base P_Base M_Lab Spec_Lab.
Open Scope Z_scope.

(** ** Rounding *)

Lemma pow_pos e : 0 <= e -> 0 < 2 ^ e.
Proof. intros. apply Z.pow_pos_nonneg; lia. Qed.

Definition scaled (num den e : Z) : Z * Z := if e <=? 0 then (num * 2 ^ (- e), den) else (num, den * 2 ^ e).

Lemma scaled_log num den : 0 < num -> 0 < den ->
  let '(a, b) := scaled num den (Z.log2 num - Z.log2 den - 53) in
  0 < b /\ 2 ^ 52 * b <= a /\ a < 2 ^ 54 * b.
Proof.
  intros N D. unfold scaled. pose proof (Z.log2_spec num N) as (N1 & N2). pose proof (Z.log2_spec den D) as (D1 & D2).
  pose proof (Z.log2_nonneg num). pose proof (Z.log2_nonneg den).
  set (x := Z.log2 num) in *. set (y := Z.log2 den) in *.
  rewrite Z.pow_succ_r in N2, D2 by lia.
  destruct (Z.leb_spec (x - y - 53) 0) as [L|L].
  - split; [exact D|]. split.
    + assert (E : 2 ^ x * 2 ^ (- (x - y - 53)) = 2 ^ 53 * 2 ^ y).
      { rewrite <- !Z.pow_add_r by lia. f_equal. lia. }
      assert (2 ^ x * 2 ^ (- (x - y - 53)) <= num * 2 ^ (- (x - y - 53))) by (apply Z.mul_le_mono_nonneg_r; lia).
      change (2 ^ 53) with (2 ^ 52 * 2) in *. lia.
    + assert (E : 2 ^ x * 2 ^ (- (x - y - 53)) = 2 ^ 53 * 2 ^ y).
      { rewrite <- !Z.pow_add_r by lia. f_equal. lia. }
      assert (P : 0 < 2 ^ (- (x - y - 53))) by (apply pow_pos; lia).
      assert (num * 2 ^ (- (x - y - 53)) < 2 * 2 ^ x * 2 ^ (- (x - y - 53))) by (apply Z.mul_lt_mono_pos_r; lia).
      change (2 ^ 54) with (2 * 2 ^ 53) in *. lia.
  - assert (P : 0 < 2 ^ (x - y - 53)) by (apply pow_pos; lia).
    assert (E : 2 ^ x = 2 ^ 53 * 2 ^ y * 2 ^ (x - y - 53)).
    { rewrite <- !Z.pow_add_r by lia. f_equal. lia. }
    split; [nia|]. split.
    + assert (den * 2 ^ (x - y - 53) < 2 * 2 ^ y * 2 ^ (x - y - 53)) by (apply Z.mul_lt_mono_pos_r; lia).
      change (2 ^ 53) with (2 ^ 52 * 2) in *. lia.
    + assert (2 ^ y * 2 ^ (x - y - 53) <= den * 2 ^ (x - y - 53)) by (apply Z.mul_le_mono_nonneg_r; lia).
      change (2 ^ 54) with (2 * 2 ^ 53) in *. lia.
Qed.

(* the exponent of the result *)
Definition exponent (num den : Z) : Z :=
  let e0 := Z.log2 num - Z.log2 den - 53 in
  let '(a, b) := scaled num den e0 in if 2 ^ 53 <=? a / b then e0 + 1 else e0.

Definition nearest (a b : Z) : Z :=
  let q := a / b in
  let r := a mod b in
  if 2 * r <? b then q else if b <? 2 * r then q + 1 else if Z.even q then q else q + 1.

Lemma round53_eq num den : round53 num den =
  (let '(a, b) := scaled num den (exponent num den) in nearest a b, exponent num den).
Proof.
  unfold round53, nearest. fold (scaled num den (Z.log2 num - Z.log2 den - 53)).
  change (let '(a, b) := scaled num den (Z.log2 num - Z.log2 den - 53) in
           if 2 ^ 53 <=? a / b then Z.log2 num - Z.log2 den - 53 + 1 else Z.log2 num - Z.log2 den - 53)
    with (exponent num den).
  fold (scaled num den (exponent num den)).
  destruct (scaled num den (exponent num den)) as (a, b). reflexivity.
Qed.

Lemma exponent_ok num den : 0 < num -> 0 < den ->
  let '(a, b) := scaled num den (exponent num den) in 0 < b /\ 2 ^ 52 * b <= a /\ a < 2 ^ 53 * b.
Proof.
  intros N D. pose proof (scaled_log num den N D) as H. unfold exponent.
  set (e := Z.log2 num - Z.log2 den - 53) in *. destruct (scaled num den e) as (a, b) eqn:E.
  destruct H as (B & L & U).
  destruct (Z.leb_spec (2 ^ 53) (a / b)) as [H|H].
  - assert (X : 2 ^ 53 * b <= a).
    { pose proof (Z.mul_div_le a b B). nia. }
    unfold scaled in E |- *. destruct (Z.leb_spec e 0) as [K|K]; injection E as <- <-.
    + destruct (Z.leb_spec (e + 1) 0) as [K'|K'].
      * assert (P : 2 ^ (- e) = 2 * 2 ^ (- (e + 1))).
        { rewrite <- Z.pow_succ_r by lia. f_equal. lia. }
        rewrite P in *. change (2 ^ 54) with (2 * 2 ^ 53) in U. change (2 ^ 53) with (2 * 2 ^ 52) in *. lia.
      * assert (e = 0) by lia. subst e. rewrite H0 in *. change (2 ^ (- 0)) with 1 in *. change (2 ^ (0 + 1)) with 2.
        change (2 ^ 54) with (2 * 2 ^ 53) in U. change (2 ^ 53) with (2 * 2 ^ 52) in *. lia.
    + destruct (Z.leb_spec (e + 1) 0) as [K'|K']; [lia|].
      rewrite Z.pow_add_r by lia. change (2 ^ 1) with 2.
      change (2 ^ 54) with (2 * 2 ^ 53) in U. change (2 ^ 53) with (2 * 2 ^ 52) in *. lia.
  - rewrite E. split; [exact B|]. split; [exact L|].
    pose proof (Z.mul_succ_div_gt a b B). nia.
Qed.

Lemma nearest_ok a b : 0 < b -> 2 * Z.abs (nearest a b * b - a) <= b /\
  (forall k, a <= k * b -> nearest a b <= k) /\ (forall k, a = k * b -> nearest a b = k).
Proof.
  intros B. unfold nearest. pose proof (Z.div_mod a b) as DM. pose proof (Z.mod_pos_bound a b B) as MB.
  set (q := a / b) in *. set (r := a mod b) in *.
  assert (DM' : a = b * q + r) by (apply DM; lia). clear DM.
  assert (Q : forall k, a <= k * b -> q <= k /\ (q = k -> r = 0)).
  { intros k K. split; nia. }
  assert (X : forall k, a = k * b -> q = k /\ r = 0).
  { intros k K. destruct (Q k) as (Q1 & Q2); [lia|]. assert (k <= q) by nia. split; lia. }
  destruct (Z.ltb_spec (2 * r) b); [|destruct (Z.ltb_spec b (2 * r)); [|destruct (Z.even q)]].
  - split; [nia|]. split; [intros k K; apply Q; exact K|intros k K; apply X; exact K].
  - split; [nia|]. split.
    + intros k K. destruct (Q k K) as (Q1 & Q2). destruct (Z.eq_dec q k); [specialize (Q2 e); lia|lia].
    + intros k K. destruct (X k K). lia.
  - split; [nia|]. split; [intros k K; apply Q; exact K|intros k K; apply X; exact K].
  - split; [nia|]. split.
    + intros k K. destruct (Q k K) as (Q1 & Q2). destruct (Z.eq_dec q k); [specialize (Q2 e); lia|lia].
    + intros k K. destruct (X k K). lia.
Qed.

(* relative error, and no rounding above an integer of at most 53 bits *)
Lemma round53_ok num den : 0 < num -> 0 < den ->
  let '(x, y) := frac (round53 num den) in
  0 < y /\ 2 ^ 53 * Z.abs (x * den - num * y) <= num * y /\
  (forall k, k <= 2 ^ 53 -> num <= k * den -> x <= k * y).
Proof.
  intros N D. rewrite round53_eq. pose proof (exponent_ok num den N D) as H.
  set (e := exponent num den) in *. unfold frac.
  unfold scaled in *. destruct (Z.leb_spec e 0) as [K|K].
  - destruct H as (_ & L & U). destruct (nearest_ok (num * 2 ^ (- e)) den D) as (A & M & _).
    assert (P : 0 < 2 ^ (- e)) by (apply pow_pos; lia).
    set (m := nearest (num * 2 ^ (- e)) den) in *. split; [exact P|]. split.
    + change (2 ^ 53) with (2 ^ 52 * 2). lia.
    + intros k _ J. apply M. nia.
  - destruct H as (B & L & U). destruct (nearest_ok num (den * 2 ^ e) B) as (A & M & X).
    assert (P : 0 < 2 ^ e) by (apply pow_pos; lia).
    set (m := nearest num (den * 2 ^ e)) in *. split; [lia|]. split.
    + replace (m * 2 ^ e * den - num * 1) with (m * (den * 2 ^ e) - num) by ring.
      change (2 ^ 53) with (2 ^ 52 * 2). lia.
    + intros k K1 J.
      assert (2 ^ 52 * 2 ^ e <= k) by nia.
      assert (E2 : 2 ^ e = 2 * 2 ^ (e - 1)).
      { rewrite <- Z.pow_succ_r by lia. f_equal. lia. }
      assert (P' : 0 < 2 ^ (e - 1)) by (apply pow_pos; lia).
      assert (k = 2 ^ 52 * 2 ^ e).
      { change (2 ^ 53) with (2 ^ 52 * 2) in K1. nia. }
      assert (num = 2 ^ 52 * (den * 2 ^ e)) by nia.
      rewrite (X (2 ^ 52) H1). lia.
Qed.

Lemma py_float_ok n : 0 < n -> n < 2 ^ 53 ->
  let '(x, y) := frac (py_float n) in 0 < y /\ x = n * y.
Proof.
  intros P L. unfold py_float. destruct (Z.eqb_spec n 0); [lia|].
  rewrite round53_eq. pose proof (exponent_ok n 1 P ltac:(lia)) as H.
  assert (E : exponent n 1 <= 0).
  { unfold exponent. assert (Z.log2 n < 53) by (apply Z.log2_lt_pow2; lia).
    change (Z.log2 1) with 0. destruct (scaled n 1 (Z.log2 n - 0 - 53)). destruct (2 ^ 53 <=? z / z0); lia. }
  set (e := exponent n 1) in *. unfold frac. unfold scaled. destruct (Z.leb_spec e 0); [|lia].
  split; [apply pow_pos; lia|].
  destruct (nearest_ok (n * 2 ^ (- e)) 1) as (_ & _ & X); [lia|]. apply X. lia.
Qed.

Lemma py_float_zero : frac (py_float 0) = (0, 1).
Proof. reflexivity. Qed.

Lemma ceil_div n b f k : 0 < n -> n < 2 ^ 53 -> 0 < b -> 0 < f -> is_ceiling n b k -> k <= 2 ^ 53 ->
  py_ceil (round53 (n * f) (b * f)) = k.
Proof.
  intros N L B F (C1 & C2) K. pose proof (round53_ok (n * f) (b * f)) as H.
  unfold py_ceil. destruct (frac (round53 (n * f) (b * f))) as (x, y).
  destruct H as (Y & R & U); [nia|nia|].
  assert (X1 : x <= k * y) by (apply U; [exact K|nia]).
  assert (X2 : (k - 1) * y < x).
  { (* x b >= n y (1 - 2^-53) *)
    assert (R1 : 2 ^ 53 * (n * f * y - x * (b * f)) <= n * f * y) by lia.
    assert (R2 : 2 ^ 53 * (n * y - x * b) <= n * y).
    { apply (Z.mul_le_mono_pos_r _ _ f F). replace (2 ^ 53 * (n * y - x * b) * f) with (2 ^ 53 * (n * f * y - x * (b * f))) by ring.
      replace (n * y * f) with (n * f * y) by ring. exact R1. }
    destruct (Z.lt_ge_cases ((k - 1) * y) x) as [|G]; [assumption|exfalso].
    assert (x * b <= (k - 1) * y * b) by nia.
    assert (2 ^ 53 * (n * y - (k - 1) * y * b) <= n * y) by lia.
    assert (2 ^ 53 * ((n - (k - 1) * b) * y) <= n * y) by (replace ((n - (k - 1) * b) * y) with (n * y - (k - 1) * y * b) by ring; lia).
    assert (2 ^ 53 * (n - (k - 1) * b) <= n) by (apply (Z.mul_le_mono_pos_r _ _ y Y); lia).
    lia. }
  assert (D : (- x) / y = - k).
  { symmetry. apply Z.div_unique with (r := k * y - x); [lia|ring]. }
  rewrite D. lia.
Qed.

Lemma get_nbatches_ok n b : 0 <= n -> n < 2 ^ 53 -> 0 < b -> b < 2 ^ 53 ->
  exists k, get_nbatches n b = Ok k /\ is_ceiling n b k.
Proof.
  intros N L B LB. unfold get_nbatches, py_div.
  pose proof (py_float_ok b B LB) as FB. destruct (frac (py_float b)) as (c, d). destruct FB as (PD & EC).
  destruct (Z.eq_dec n 0) as [->|NZ].
  - rewrite py_float_zero. destruct (Z.eqb_spec c 0) as [E|E]; [nia|]. cbn. exists 0.
    split; [reflexivity|]. split; lia.
  - pose proof (py_float_ok n ltac:(lia) L) as FN. destruct (frac (py_float n)) as (a, b'). destruct FN as (PB & EA).
    destruct (Z.eqb_spec c 0) as [E|E]; [nia|]. destruct (Z.eqb_spec a 0) as [E'|E']; [nia|].
    cbn [bind]. exists (- ((- n) / b)).
    assert (C : is_ceiling n b (- ((- n) / b))).
    { pose proof (Z.div_mod (- n) b ltac:(lia)). pose proof (Z.mod_pos_bound (- n) b B). split; nia. }
    split; [|exact C]. f_equal. replace (a * d) with (n * (b' * d)) by (subst; ring).
    replace (b' * c) with (b * (b' * d)) by (subst; ring).
    apply ceil_div; [lia|exact L|exact B|nia|exact C|].
    destruct C as (C1 & C2). nia.
Qed.

(** ** Batches *)

Open Scope nat_scope.

Lemma skipn_firstn_app {A} B n (l : list A) : firstn n l ++ firstn B (skipn n l) = firstn (n + B) l.
Proof.
  revert l. induction n as [|n IH]; intros l; [reflexivity|].
  destruct l as [|a l]; cbn; [rewrite firstn_nil; reflexivity|]. f_equal. apply IH.
Qed.

Lemma concat_chunks {A} B N (l : list A) :
  concat (map (fun k => firstn B (skipn (k * B) l)) (seq 0 N)) = firstn (N * B) l.
Proof.
  induction N as [|N IH]; [reflexivity|].
  rewrite seq_S, map_app, concat_app, IH. cbn [map concat plus]. rewrite app_nil_r.
  rewrite skipn_firstn_app. f_equal. lia.
Qed.

Lemma py_slice_chunk {A} (l : list A) k b : (0 < b)%Z -> (Z.of_nat k * b < Z.of_nat (length l))%Z ->
  py_slice l (Z.of_nat k * b) (Z.min (Z.of_nat k * b + b) (Z.of_nat (length l))) =
  firstn (Z.to_nat b) (skipn (k * Z.to_nat b) l).
Proof.
  intros B K. unfold py_slice. set (n := Z.of_nat (length l)) in *.
  assert (E0 : Z.to_nat (Z.of_nat k * b) = k * Z.to_nat b) by nia.
  destruct (Z.ltb_spec (Z.of_nat k * b) 0); [nia|].
  destruct (Z.ltb_spec (Z.min (Z.of_nat k * b + b) n) 0); [nia|].
  rewrite !Z.min_l with (n := (Z.of_nat k * b)%Z) by lia. rewrite E0.
  assert (LE : length (skipn (k * Z.to_nat b) l) = length l - k * Z.to_nat b) by apply skipn_length.
  destruct (Z.le_gt_cases (Z.of_nat k * b + b) n) as [C|C].
  - rewrite !Z.min_l by lia. f_equal. nia.
  - rewrite Z.min_r with (n := (Z.of_nat k * b + b)%Z) by lia. rewrite Z.min_id.
    unfold n. rewrite Nat2Z.id. rewrite (firstn_all2 (n := Z.to_nat b)) by nia.
    rewrite firstn_all2 by lia. reflexivity.
Qed.

Lemma batches_cover st vials b N : (0 < b)%Z -> get_nbatches (Z.of_nat (length vials)) b = Ok N ->
  is_ceiling (Z.of_nat (length vials)) b N ->
  exists bs, mapM (fun k => batch_vials st vials (Z.of_nat k * b) b false) (seq 0 (Z.to_nat N)) = Ok bs /\
    concat bs = vials.
Proof.
  intros B _ (C1 & C2).
  exists (map (fun k => firstn (Z.to_nat b) (skipn (k * Z.to_nat b) vials)) (seq 0 (Z.to_nat N))). split.
  - assert (H : forall k, In k (seq 0 (Z.to_nat N)) -> (Z.of_nat k * b < Z.of_nat (length vials))%Z).
    { intros k I. apply in_seq in I. assert (Z.of_nat k <= N - 1)%Z by lia. nia. }
    induction (seq 0 (Z.to_nat N)) as [|k l IH]; [reflexivity|].
    cbn [mapM map]. unfold batch_vials at 1. cbn [bind].
    rewrite py_slice_chunk by (auto; apply H; cbn; auto). rewrite IH; [reflexivity|].
    intros k' I. apply H. cbn. auto.
  - rewrite concat_chunks. apply firstn_all2. nia.
Qed.

(* accumulating results *)
Lemma run_list_acc load solve vials : forall r st,
  foldM (fun '(results, st) v =>
    do _ <- load v;
    match solve v with
    | Some prize => Ok (results ++ [(v_uuid v, prize)], write_result st (v_uuid v) prize)
    | None => Ok (results, st)
    end) vials (r, st) =
  do '(r', st') <- run_experiment_from_vial_list load solve vials st; Ok (r ++ r', st').
Proof.
  unfold run_experiment_from_vial_list. induction vials as [|v l IH]; intros r st; cbn [foldM].
  - cbn. rewrite app_nil_r. reflexivity.
  - destruct (load v) as [[]|e|u|]; cbn [bind]; try reflexivity.
    destruct (solve v) as [p|].
    + cbn [bind]. rewrite IH. rewrite (IH ([] ++ [(v_uuid v, p)])).
      match goal with |- bind (bind ?X _) _ = _ => idtac | _ => idtac end.
      destruct (foldM _ l ([], write_result st (v_uuid v) p)) as [[r' st']|e|u|]; cbn; try reflexivity.
      rewrite <- app_assoc. reflexivity.
    + cbn [bind]. apply IH.
Qed.

Lemma run_list_app load solve a b st :
  run_experiment_from_vial_list load solve (a ++ b) st =
  do '(r, st1) <- run_experiment_from_vial_list load solve a st;
  do '(r', st2) <- run_experiment_from_vial_list load solve b st1; Ok (r ++ r', st2).
Proof.
  unfold run_experiment_from_vial_list at 1. rewrite foldM_app.
  change (foldM _ a ([], st)) with (run_experiment_from_vial_list load solve a st).
  destruct (run_experiment_from_vial_list load solve a st) as [[r st1]|e|u|]; cbn [bind]; try reflexivity.
  apply run_list_acc.
Qed.

Lemma run_all_ok load solve vials b st : (Z.of_nat (length vials) < 2 ^ 53)%Z -> (0 < b < 2 ^ 53)%Z ->
  run_all_batches load solve vials b false st = run_experiment_from_vial_list load solve vials st.
Proof.
  intros L (B & LB). unfold run_all_batches.
  destruct (get_nbatches_ok (Z.of_nat (length vials)) b ltac:(lia) L B LB) as (N & E & C). rewrite E. cbn [bind].
  assert (H : forall k, In k (seq 0 (Z.to_nat N)) -> (Z.of_nat k * b < Z.of_nat (length vials))%Z).
  { destruct C as (C1 & C2). intros k I. apply in_seq in I. assert (Z.of_nat k <= N - 1)%Z by lia. nia. }
  assert (CC : concat (map (fun k => firstn (Z.to_nat b) (skipn (k * Z.to_nat b) vials)) (seq 0 (Z.to_nat N))) = vials).
  { rewrite concat_chunks. apply firstn_all2. destruct C. nia. }
  transitivity (run_experiment_from_vial_list load solve
    (concat (map (fun k => firstn (Z.to_nat b) (skipn (k * Z.to_nat b) vials)) (seq 0 (Z.to_nat N)))) st);
    [|rewrite CC; reflexivity].
  clear CC C E.
  enough (X : forall r st, foldM (fun '(results, st0) k =>
      do '(r0, st') <- run_batch load solve st0 vials (Z.of_nat k * b) b false; Ok (results ++ r0, st'))
     (seq 0 (Z.to_nat N)) (r, st) =
     do '(r', st') <- run_experiment_from_vial_list load solve
        (concat (map (fun k => firstn (Z.to_nat b) (skipn (k * Z.to_nat b) vials)) (seq 0 (Z.to_nat N)))) st;
     Ok (r ++ r', st')).
  { rewrite X. destruct (run_experiment_from_vial_list _ _ _ _) as [[r' st']|e|u|]; reflexivity. }
  induction (seq 0 (Z.to_nat N)) as [|k l IH]; intros r st'; cbn [foldM map concat].
  - cbn. rewrite app_nil_r. reflexivity.
  - unfold run_batch at 1, batch_vials at 1. cbn [bind].
    rewrite py_slice_chunk by (auto; apply H; cbn; auto). rewrite run_list_app.
    destruct (run_experiment_from_vial_list load solve (firstn _ _) st') as [[r1 st1]|e|u|]; cbn [bind]; try reflexivity.
    rewrite IH by (intros; apply H; cbn; auto).
    destruct (run_experiment_from_vial_list load solve (concat _) st1) as [[r2 st2]|e|u|]; cbn [bind]; try reflexivity.
    rewrite app_assoc. reflexivity.
Qed.

(** ** Filters *)

Lemma selected_snoc {A} (P : A -> Prop) l sub a : selected P l sub ->
  (P a -> selected P (l ++ [a]) (sub ++ [a])) /\ (~ P a -> selected P (l ++ [a]) sub).
Proof.
  induction 1 as [|x l sub X S (I1 & I2)|x l sub X S (I1 & I2)]; cbn.
  - split; intros; repeat constructor; auto.
  - split; intros; constructor; auto.
  - split; intros; apply sel_drop; auto.
Qed.

Lemma selected_fold {A} (P : A -> Prop) (f : list A -> A -> res (list A)) l :
  (forall acc a, In a l -> P a /\ f acc a = Ok (acc ++ [a]) \/ ~ P a /\ f acc a = Ok acc) ->
  exists sub, foldM f l [] = Ok sub /\ selected P l sub.
Proof.
  intros H. enough (X : forall done acc, (forall a, In a l -> In a l) -> selected P done acc ->
    exists sub, foldM f l acc = Ok sub /\ selected P (done ++ l) sub).
  { destruct (X [] []) as (sub & E & S); [auto|constructor|]. eauto. }
  induction l as [|a l IH]; intros done acc _ S; cbn [foldM].
  - exists acc. rewrite app_nil_r. auto.
  - destruct (selected_snoc P done acc a S) as (S1 & S2).
    destruct (H acc a (or_introl eq_refl)) as [(PA & E)|(PA & E)]; rewrite E; cbn [bind].
    + destruct (IH (fun c x I => H c x (or_intror I)) (done ++ [a]) (acc ++ [a])) as (sub & E' & S'); auto.
      exists sub. rewrite <- app_assoc in S'. auto.
    + destruct (IH (fun c x I => H c x (or_intror I)) (done ++ [a]) acc) as (sub & E' & S'); auto.
      exists sub. rewrite <- app_assoc in S'. auto.
Qed.

Lemma missing_ok st vials : (forall v, In v vials -> st (v_uuid v) <> BadFields) ->
  exists m, missing_vials st vials = Ok m /\ selected (without_result st) vials m.
Proof.
  intros B. apply selected_fold. intros acc v I. specialize (B v I). unfold without_result, read_result.
  destruct (st (v_uuid v)); try congruence; [left|left|right]; split; auto; intros [|]; discriminate.
Qed.

Lemma infeasible_ok st vials : (forall v, In v vials -> st (v_uuid v) <> BadFields /\ st (v_uuid v) <> NotJson) ->
  exists m, infeasible_vials st vials = Ok m /\ selected (result_below_quota st) vials m.
Proof.
  intros B. apply selected_fold. intros acc v I. destruct (B v I) as (B1 & B2). unfold result_below_quota, read_result.
  destruct (st (v_uuid v)) as [| | |p]; try congruence.
  - right. split; [|reflexivity]. intros (p & E & _). discriminate.
  - destruct (Z.ltb_spec p (v_quota v)) as [L|L].
    + left. split; [exists p; auto|reflexivity].
    + right. split; [|reflexivity]. intros (p' & E & L'). injection E as ->. lia.
Qed.

(** ** Running *)

Lemma run_list_ok load solve vials : (forall v, In v vials -> load v = Ok tt) -> NoDup (map v_uuid vials) -> forall st,
  exists results st', run_experiment_from_vial_list load solve vials st = Ok (results, st') /\
    (forall u p, In (u, p) results <-> exists v, In v vials /\ v_uuid v = u /\ solve v = Some p) /\
    NoDup (map fst results) /\
    (forall v, In v vials -> st' (v_uuid v) = match solve v with Some p => ResultFile p | None => st (v_uuid v) end) /\
    (forall u, ~ In u (map v_uuid vials) -> st' u = st u).
Proof.
  intros LD N. induction vials as [|v l IH]; intros st.
  - exists [], st. split; [reflexivity|]. split; [|split; [constructor|split; [intros v []|auto]]].
    intros u p. split; [intros []|intros (v & [] & _)].
  - cbn in N. inversion N as [|? ? NI ND]; subst.
    change (v :: l) with ([v] ++ l). rewrite run_list_app.
    unfold run_experiment_from_vial_list at 1. cbn [foldM]. rewrite LD by (cbn; auto). cbn [bind].
    set (st1 := match solve v with Some p => write_result st (v_uuid v) p | None => st end).
    destruct (IH (fun x I => LD x (or_intror I)) ND st1) as (r & st' & E & R & NR & S1 & S2).
    assert (O : forall u, u <> v_uuid v -> st1 u = st u).
    { intros u U. unfold st1. destruct (solve v); [|reflexivity]. unfold write_result.
      destruct (Nat.eqb_spec u (v_uuid v)); [contradiction|reflexivity]. }
    assert (M : st1 (v_uuid v) = match solve v with Some p => ResultFile p | None => st (v_uuid v) end).
    { unfold st1. destruct (solve v); [|reflexivity]. unfold write_result. rewrite Nat.eqb_refl. reflexivity. }
    assert (RI : forall u p, In (u, p) r -> u <> v_uuid v).
    { intros u p I ->. apply R in I. destruct I as (v' & I & U & _). apply NI. rewrite <- U. apply in_map. exact I. }
    exists ((match solve v with Some p => [(v_uuid v, p)] | None => [] end) ++ r), st'. split.
    { unfold st1 in E. destruct (solve v); cbn [bind]; rewrite E; reflexivity. }
    split; [|split; [|split]].
    + intros u p. rewrite in_app_iff, R. cbn. split.
      * intros [I|(v' & I & U & SV)]; [|exists v'; auto].
        destruct (solve v) as [p'|] eqn:SV; [|destruct I]. destruct I as [I|[]]. inversion I; subst.
        exists v. auto.
      * intros (v' & [<-|I] & U & SV); [left|right; eauto]. rewrite SV, U. cbn. auto.
    + rewrite map_app. destruct (solve v); cbn; [|exact NR]. constructor; [|exact NR].
      intros I. apply in_map_iff in I. destruct I as ((u & p) & U & I). cbn in U. apply RI in I. auto.
    + intros x [<-|I].
      * rewrite S2 by exact NI. exact M.
      * rewrite S1 by exact I. destruct (solve x); [reflexivity|]. apply O. intros E'. apply NI. rewrite <- E'.
        apply in_map. exact I.
    + intros u U. cbn in U. rewrite S2 by tauto. apply O. intros ->. tauto.
Qed.

Lemma selected_In {A} (P : A -> Prop) l sub : selected P l sub -> forall a, In a sub <-> In a l /\ P a.
Proof.
  induction 1 as [|x l sub X S IH|x l sub X S IH]; intros a; cbn.
  - tauto.
  - rewrite IH. split; [intros [<-|]; tauto|]. intros ([<-|]&?); tauto.
  - rewrite IH. split; [tauto|]. intros ([<-|]&?); tauto.
Qed.

Lemma selected_NoDup {A B} (f : A -> B) (P : A -> Prop) l sub : selected P l sub -> NoDup (map f l) -> NoDup (map f sub).
Proof.
  induction 1 as [|x l sub X S IH|x l sub X S IH]; cbn; intros N; inversion N as [|? ? NI ND]; subst; auto.
  - constructor; [|auto]. intros I. apply NI. apply in_map_iff in I. destruct I as (a & <- & I).
    apply in_map. apply (selected_In _ _ _ S a). exact I.
Qed.

Lemma selected_length {A} (P : A -> Prop) l sub : selected P l sub -> length sub <= length l.
Proof. induction 1; cbn; lia. Qed.

Lemma rerun_ok load solve vials m b st : NoDup (map v_uuid vials) ->
  (forall v, In v vials -> load v = Ok tt) -> missing_vials st vials = Ok m ->
  (forall v, In v vials -> st (v_uuid v) <> BadFields) ->
  (Z.of_nat (length vials) < 2 ^ 53)%Z -> (0 < b < 2 ^ 53)%Z ->
  exists results st', run_all_batches load solve m b false st = Ok (results, st') /\
    exists m', missing_vials st' vials = Ok m' /\
      selected (fun v => without_result st v /\ solve v = None) vials m' /\
    (forall v, In v vials -> ~ without_result st v -> st' (v_uuid v) = st (v_uuid v)).
Proof.
  intros N LD E BF L B. destruct (missing_ok st vials BF) as (m0 & E0 & S). assert (m0 = m) by congruence. subst m0.
  pose proof (selected_length _ _ _ S) as LL.
  rewrite run_all_ok by (auto; lia).
  assert (NM : NoDup (map v_uuid m)) by (eapply selected_NoDup; eauto).
  destruct (run_list_ok load solve m) with (st := st) as (r & st' & ER & _ & _ & S1 & S2).
  { intros v I. apply LD. apply (selected_In _ _ _ S). exact I. }
  { exact NM. }
  exists r, st'. split; [exact ER|].
  assert (U : forall v w, In v vials -> In w vials -> v_uuid v = v_uuid w -> v = w).
  { clear - N. induction vials as [|x l IH]; [intros v w []|]. cbn in N. inversion N as [|? ? NI ND]; subst.
    intros v w [<-|I] [<-|J] EQ; auto.
    - destruct NI. rewrite EQ. apply in_map. exact J.
    - destruct NI. rewrite <- EQ. apply in_map. exact I. }
  assert (KEEP : forall v, In v vials -> ~ without_result st v -> st' (v_uuid v) = st (v_uuid v)).
  { intros v I W. apply S2. intros J. apply in_map_iff in J. destruct J as (w & EQ & J).
    apply (selected_In _ _ _ S) in J. destruct J as (J & W'). rewrite (U w v J I EQ) in W'. contradiction. }
  assert (DEC : forall v, without_result st v \/ ~ without_result st v).
  { intros v. unfold without_result. destruct (st (v_uuid v)); auto; right; intros [|]; discriminate. }
  assert (NEW : forall v, In v vials -> without_result st' v <-> without_result st v /\ solve v = None).
  { intros v I. destruct (DEC v) as [W|W].
    - assert (J : In v m) by (apply (selected_In _ _ _ S); auto). specialize (S1 v J).
      unfold without_result at 1. rewrite S1. destruct (solve v).
      + split; [intros [|]; discriminate|intros (_ & X); discriminate].
      + split; [intros _; auto|intros _; exact W].
    - unfold without_result at 1. rewrite (KEEP v I W). split; [intros X; destruct (W X)|tauto]. }
  assert (BF' : forall v, In v vials -> st' (v_uuid v) <> BadFields).
  { intros v I. destruct (DEC v) as [W|W].
    - assert (J : In v m) by (apply (selected_In _ _ _ S); auto). rewrite (S1 v J). destruct (solve v); [discriminate|auto].
    - rewrite (KEEP v I W). auto. }
  destruct (missing_ok st' vials BF') as (m' & E' & S'). exists m'. split; [exact E'|]. split; [|exact KEEP].
  clear - S' NEW. induction S' as [|x l sub X S IH|x l sub X S IH].
  - constructor.
  - constructor; [apply NEW; cbn; auto|]. apply IH. intros v I. apply NEW. cbn. auto.
  - apply sel_drop; [intros H; apply X; apply NEW; cbn; auto|]. apply IH. intros v I. apply NEW. cbn. auto.
Qed.
