(** * P_Messages: proofs about M_Messages: loggers *)
From Coq Require Import String.
From Verif Require Import Base Graph P_Base M_Messages Spec_Messages.
Open Scope string_scope.
Open Scope nat_scope.

Lemma name_eqb_eq a b : name_eqb a b = true <-> a = b.
Proof.
  revert b. induction a as [|x a IH]; intros [|y b]; cbn; split; intro H; try discriminate; auto.
  - apply andb_true_iff in H. destruct H as (H1 & H2). apply String.eqb_eq in H1. apply IH in H2. now subst.
  - inversion H; subst. rewrite String.eqb_refl. now apply IH.
Qed.

Lemma name_eqb_refl a : name_eqb a a = true.
Proof. now apply name_eqb_eq. Qed.

Lemma name_eqb_neq a b : a <> b -> name_eqb a b = false.
Proof. intro H. destruct (name_eqb a b) eqn:E; auto. apply name_eqb_eq in E. contradiction. Qed.

Lemma name_eqb_sym a b : name_eqb a b = name_eqb b a.
Proof.
  destruct (name_eqb a b) eqn:E.
  - apply name_eqb_eq in E. subst. now rewrite name_eqb_refl.
  - symmetry. apply name_eqb_neq. intros ->. now rewrite name_eqb_refl in E.
Qed.

Lemma name_dec (a b : list string) : a = b \/ a <> b.
Proof. destruct (name_eqb a b) eqn:E; [left; now apply name_eqb_eq|right; intros ->; now rewrite name_eqb_refl in E]. Qed.

Lemma prefixb_spec m n : name_prefixb m n = true <-> name_prefix m n.
Proof.
  revert n. induction m as [|x m IH]; intros [|y n]; cbn; split; intro H; auto; try discriminate.
  - now exists [].
  - now exists (y :: n).
  - destruct H as (k & H). discriminate.
  - apply andb_true_iff in H. destruct H as (H1 & H2). apply String.eqb_eq in H1. apply IH in H2.
    destruct H2 as (k & ->). subst. now exists k.
  - destruct H as (k & H). inversion H; subst. rewrite String.eqb_refl. cbn. apply IH. now exists k.
Qed.

(** One call. *)
Lemma find_get n l reg m :
  find_logger (get_pctsp_logger n l reg) m =
  if name_eqb n m then
    Some (mkLogger l (match find_logger reg n with Some x => lg_handlers x | None => [] end ++ [l])%list)
  else find_logger reg m.
Proof.
  induction reg as [|(k, x) r IH]; cbn.
  - destruct (name_eqb n m); auto.
  - destruct (name_eqb k n) eqn:E; cbn.
    + apply name_eqb_eq in E. subst k. destruct (name_eqb n m); auto.
    + rewrite IH. destruct (name_eqb k m) eqn:E2; auto.
      apply name_eqb_eq in E2. subst k. now rewrite (name_eqb_sym n m), E.
Qed.

Definition run_calls (calls : list (logger_name * Z)) : registry :=
  fold_left (fun r c => get_pctsp_logger (fst c) (snd c) r) calls new_registry.

(** What a registry knows after some calls. *)
Definition handlers_of (calls : list (logger_name * Z)) (n : logger_name) : list Z :=
  map snd (filter (fun c => name_eqb (fst c) n) calls).

Lemma run_snoc calls c : run_calls (calls ++ [c]) = get_pctsp_logger (fst c) (snd c) (run_calls calls).
Proof. unfold run_calls. now rewrite fold_left_app. Qed.

Lemma run_calls_find calls n :
  match find_logger (run_calls calls) n with
  | Some x => lg_handlers x = handlers_of calls n /\ own_level calls n (lg_level x)
  | None => n <> [] /\ ~ In n (map fst calls)
  end.
Proof.
  revert n. induction calls as [|c calls IH] using rev_ind; intro n.
  - cbn. destruct n as [|x n]; cbn.
    + split; auto. right. auto.
    + split; [discriminate|auto].
  - rewrite run_snoc, find_get. unfold handlers_of. rewrite filter_app, map_app. cbn [filter].
    destruct c as (m, l). cbn [fst snd]. destruct (name_eqb m n) eqn:E.
    + apply name_eqb_eq in E. subst m. cbn [lg_handlers lg_level]. split.
      * specialize (IH n). destruct (find_logger (run_calls calls) n) as [x|] eqn:F.
        -- destruct IH as (-> & _). reflexivity.
        -- destruct IH as (_ & NI). enough (X : handlers_of calls n = []) by (change ([l] = (handlers_of calls n ++ [l])%list); now rewrite X).
           unfold handlers_of.
           clear -NI. induction calls as [|c calls IH]; cbn; auto. cbn in NI.
           rewrite name_eqb_neq by tauto. apply IH. tauto.
      * left. exists calls, []. auto.
    + cbn [map]. rewrite app_nil_r. specialize (IH n).
      assert (NE : m <> n) by (intros ->; now rewrite name_eqb_refl in E).
      destruct (find_logger (run_calls calls) n) as [x|].
      * destruct IH as (H1 & H2). split; auto. destruct H2 as [(a & b & H2 & H3)|(H2 & H3)].
        -- left. exists a, (b ++ [(m, l)])%list. subst calls. rewrite <- app_assoc. split; auto.
           rewrite map_app, in_app_iff. cbn. tauto.
        -- right. split; auto. rewrite map_app, in_app_iff. cbn. tauto.
      * destruct IH as (H1 & H2). split; auto. rewrite map_app, in_app_iff. cbn. tauto.
Qed.

Lemma own_level_fun calls n a b : own_level calls n a -> own_level calls n b -> a = b.
Proof.
  intros [(x & y & H & N)|(H & E)] [(x' & y' & H' & N')|(H' & E')].
  - subst calls. revert x' H'. induction x as [|c x IH]; intros [|c' x'] H'; cbn in H'.
    + now inversion H'.
    + inversion H'; subst. exfalso. apply N. rewrite map_app, in_app_iff. cbn. auto.
    + inversion H'; subst. exfalso. apply N'. rewrite map_app, in_app_iff. cbn. auto.
    + inversion H'. eapply IH; eauto.
  - exfalso. apply H'. subst calls. rewrite map_app, in_app_iff. cbn. auto.
  - exfalso. apply H. subst calls. rewrite map_app, in_app_iff. cbn. auto.
  - congruence.
Qed.

(** The chain. *)
Lemma chain_in r m : In m (name_chain r) <-> name_prefix m (rev r).
Proof.
  revert m. induction r as [|x r IH]; intro m; cbn [name_chain In].
  - cbn. split.
    + intros [<-|[]]. now exists [].
    + intros (k & H). destruct m; [now left|discriminate].
  - rewrite IH. split.
    + intros [<-|(k & H)]; [exists []; now rewrite app_nil_r|].
      exists (k ++ [x])%list. cbn [rev]. rewrite H. now rewrite app_assoc.
    + intros (k & H). destruct k as [|z k _] using rev_ind.
      * left. rewrite app_nil_r in H. auto.
      * right. exists k. cbn [rev] in H. rewrite app_assoc in H. now apply app_inj_tail in H.
Qed.

Lemma chain_length r : Forall (fun m => List.length m <= List.length r) (name_chain r).
Proof.
  induction r as [|x r IH]; cbn [name_chain]; constructor; try rewrite rev_length; auto.
  cbn. eapply Forall_impl; [|exact IH]. cbn. intros; lia.
Qed.

Lemma chain_nodup r : NoDup (name_chain r).
Proof.
  induction r as [|x r IH]; cbn [name_chain]; constructor; auto; [constructor|].
  intro H. pose proof (chain_length r) as L. rewrite Forall_forall in L. apply L in H.
  rewrite rev_length in H. cbn in H. lia.
Qed.

(** Effective levels. *)
Lemma effective_chain calls r :
  counting_level calls (rev r)
    (effective_level (flat_map (fun m => match find_logger (run_calls calls) m with Some l => [l] | None => [] end)
                        (name_chain r))).
Proof.
  induction r as [|x r IH].
  - cbn [name_chain flat_map rev]. rewrite app_nil_r. pose proof (run_calls_find calls []) as F.
    destruct (find_logger (run_calls calls) []) as [l|]; [|destruct F; congruence].
    destruct F as (_ & F). cbn [effective_level].
    assert (E : (if (lg_level l =? 0)%Z then 0%Z else lg_level l) = lg_level l)
      by (destruct (Z.eqb_spec (lg_level l) 0); auto).
    rewrite E. exists [], []. split; auto. split; auto. split; auto.
    intros k' y k'' H. destruct k'; discriminate.
  - cbn [name_chain flat_map]. pose proof (run_calls_find calls (rev (x :: r))) as F.
    assert (NE : rev (x :: r) <> []) by (cbn; intro H; now apply app_eq_nil in H as (_ & H)).
    assert (up : own_level calls (rev (x :: r)) 0 ->
       counting_level calls (rev (x :: r)) (effective_level (flat_map (fun m => match find_logger (run_calls calls) m with Some l => [l] | None => [] end)
                        (name_chain r)))).
    { intro Z0. destruct IH as (m & k & H1 & H2 & H3 & H4). exists m, (k ++ [x])%list. split.
      - cbn [rev]. rewrite H1. now rewrite app_assoc.
      - split; auto. split; auto. intros k' y k'' H. destruct k'' as [|z k'' _] using rev_ind.
        + apply app_inj_tail in H. destruct H as (<- & <-). cbn [rev] in Z0. rewrite H1 in Z0.
          now rewrite <- app_assoc in Z0.
        + rewrite app_comm_cons, app_assoc in H. apply app_inj_tail in H. destruct H as (H & _). eauto. }
    destruct (find_logger (run_calls calls) (rev (x :: r))) as [l|].
    + destruct F as (_ & F). cbn [app effective_level]. destruct (Z.eqb_spec (lg_level l) 0) as [E|E].
      * rewrite E in F. auto.
      * exists (rev (x :: r)), []. rewrite app_nil_r. split; auto. split; auto. split; auto.
        intros k' y k'' H. destruct k'; discriminate.
    + apply up. right. destruct F as (_ & F). split; auto. destruct (rev (x :: r)); [congruence|reflexivity].
Qed.

Lemma app_same_split (A : Type) (a b c d : list A) : (a ++ b)%list = (c ++ d)%list ->
  (exists k, a = (c ++ k)%list /\ d = (k ++ b)%list) \/ (exists k, c = (a ++ k)%list /\ b = (k ++ d)%list).
Proof.
  revert c. induction a as [|x a IH]; intros [|y c]; cbn; intro H.
  - left. exists []. auto.
  - right. exists (y :: c). auto.
  - left. exists (x :: a). auto.
  - inversion H; subst. destruct (IH c H2) as [(k & -> & ->)|(k & -> & ->)]; [left|right]; exists k; auto.
Qed.

Lemma counting_fun calls n a b : counting_level calls n a -> counting_level calls n b -> a = b.
Proof.
  assert (W : forall m k m' k' a b, (m ++ k)%list = (m' ++ k')%list ->
    own_level calls m a -> (a <> 0%Z \/ m = []) -> own_level calls m' b ->
    (forall q x q', k' = (q ++ x :: q')%list -> own_level calls (m' ++ q ++ [x])%list 0) ->
    forall j, m = (m' ++ j)%list -> k' = (j ++ k)%list -> a = b).
  { intros m k m' k' a0 b0 E O Z0 O' A j -> ->. destruct j as [|x j _] using rev_ind.
    - rewrite app_nil_r in O. eapply own_level_fun; eauto.
    - specialize (A j x k). rewrite <- !app_assoc in A. specialize (A eq_refl).
      pose proof (own_level_fun _ _ _ _ O A) as ->. destruct Z0 as [Z0|Z0]; [congruence|].
      destruct m'; [destruct j; discriminate|discriminate]. }
  intros (m & k & H1 & H2 & H3 & H4) (m' & k' & H1' & H2' & H3' & H4'). subst n.
  destruct (app_same_split _ _ _ _ _ H1') as [(j & E1 & E2)|(j & E1 & E2)].
  - eapply W; eauto.
  - symmetry. eapply (W m' k' m k); eauto.
Qed.

(** Counting handlers. *)
Lemma handlers_flat calls ns :
  flat_map lg_handlers (flat_map (fun m => match find_logger (run_calls calls) m with Some l => [l] | None => [] end) ns)
  = flat_map (handlers_of calls) ns.
Proof.
  induction ns as [|m ns IH]; cbn; auto. pose proof (run_calls_find calls m) as F.
  destruct (find_logger (run_calls calls) m) as [x|]; cbn.
  - destruct F as (-> & _). now rewrite IH.
  - destruct F as (_ & F). rewrite IH. enough (handlers_of calls m = []) as ->; auto.
    unfold handlers_of. clear -F. induction calls as [|c calls IH]; cbn; auto. cbn in F.
    rewrite name_eqb_neq by tauto. apply IH. tauto.
Qed.

Lemma handlers_cons c calls m :
  handlers_of (c :: calls) m = if name_eqb (fst c) m then snd c :: handlers_of calls m else handlers_of calls m.
Proof. destruct c as (k, l). unfold handlers_of. cbn [filter fst snd]. destruct (name_eqb k m); reflexivity. Qed.

Lemma handlers_count P calls ns : NoDup ns ->
  List.length (filter P (flat_map (handlers_of calls) ns)) =
  List.length (filter (fun c => existsb (name_eqb (fst c)) ns && P (snd c)) calls).
Proof.
  intro N. induction calls as [|c calls IH].
  - cbn. induction ns; cbn; auto. apply IHns. now inversion N.
  - assert (G : List.length (filter P (flat_map (handlers_of (c :: calls)) ns)) =
      (if existsb (name_eqb (fst c)) ns && P (snd c) then 1 else 0) +
      List.length (filter P (flat_map (handlers_of calls) ns))).
    { clear IH. induction ns as [|m ns IH]; cbn [flat_map existsb]; auto.
      inversion N; subst. rewrite handlers_cons, !filter_app, !app_length, (IH H2).
      destruct (name_eqb (fst c) m) eqn:E; cbn [orb]; [|lia].
      assert (X : existsb (name_eqb (fst c)) ns = false).
      { apply name_eqb_eq in E. destruct (existsb (name_eqb (fst c)) ns) eqn:X; auto.
        apply existsb_exists in X. destruct X as (z & I & X). apply name_eqb_eq in X. subst. contradiction. }
      rewrite X. cbn [filter andb]. destruct (P (snd c)); cbn; lia. }
    rewrite G, IH. cbn [filter]. match goal with |- context [existsb ?f ns && ?p] => destruct (existsb f ns && p) end; cbn; lia.
Qed.

Lemma existsb_chain m n : existsb (name_eqb m) (name_chain (rev n)) = name_prefixb m n.
Proof.
  destruct (name_prefixb m n) eqn:E.
  - apply prefixb_spec in E. apply existsb_exists. exists m. split; [|apply name_eqb_refl].
    apply chain_in. now rewrite rev_involutive.
  - destruct (existsb (name_eqb m) (name_chain (rev n))) eqn:X; auto.
    apply existsb_exists in X. destruct X as (z & I & X). apply name_eqb_eq in X. subst z.
    apply chain_in in I. rewrite rev_involutive in I. apply prefixb_spec in I. congruence.
Qed.

Lemma filter_all_true (A : Type) (l : list A) : filter (fun _ => true) l = l.
Proof. induction l; cbn; congruence. Qed.

Theorem copies_calls calls n lvl e : counting_level calls n e ->
  copies (run_calls calls) n lvl =
  if (e <=? lvl)%Z then
    if existsb (fun c => name_prefixb (fst c) n) calls
    then List.length (filter (fun c => name_prefixb (fst c) n && (snd c <=? lvl)%Z) calls)
    else if (30 <=? lvl)%Z then 1 else 0
  else 0.
Proof.
  intro C. unfold copies, logger_chain.
  pose proof (effective_chain calls (rev n)) as E. rewrite rev_involutive in E.
  rewrite (counting_fun _ _ _ _ E C). destruct (e <=? lvl)%Z; auto.
  rewrite handlers_flat.
  pose proof (handlers_count (fun h => h <=? lvl)%Z calls _ (chain_nodup (rev n))) as H1.
  pose proof (handlers_count (fun _ => true) calls _ (chain_nodup (rev n))) as H2.
  rewrite filter_all_true in H2.
  assert (X : forall P, filter (fun c => existsb (name_eqb (fst c)) (name_chain (rev n)) && P (snd c)) calls =
     filter (fun c => name_prefixb (fst c) n && P (snd c)) calls).
  { intro P. apply filter_ext. intro c. now rewrite existsb_chain. }
  rewrite X in H1. rewrite (X (fun _ => true)) in H2.
  destruct (existsb (fun c => name_prefixb (fst c) n) calls) eqn:EX.
  - rewrite <- H1. destruct (flat_map (handlers_of calls) (name_chain (rev n))); auto.
    exfalso. apply existsb_exists in EX. destruct EX as (c & I & EX). cbn in H2.
    assert (I2 : In c (filter (fun c => name_prefixb (fst c) n && true) calls))
      by (apply filter_In; split; auto; now rewrite EX).
    destruct (filter (fun c => name_prefixb (fst c) n && true) calls); [contradiction|discriminate].
  - destruct (flat_map (handlers_of calls) (name_chain (rev n))) as [|h hs]; auto. exfalso.
    cbn in H2. clear -H2 EX. induction calls as [|c calls IH]; cbn in *; [discriminate|].
    apply orb_false_iff in EX. destruct EX as (EX & EX2). rewrite EX in H2. cbn in H2. auto.
Qed.

Lemma counting_exists calls n : exists e, counting_level calls n e.
Proof. pose proof (effective_chain calls (rev n)) as E. rewrite rev_involutive in E. eauto. Qed.

(** Programs. *)
Lemma log_run_app reg a b :
  log_run reg (a ++ b) =
  let '(reg1, o1) := log_run reg a in let '(reg2, o2) := log_run reg1 b in (reg2, (o1 ++ o2)%list).
Proof.
  revert reg. induction a as [|[n l|n l t] a IH]; intro reg; cbn.
  - now destruct (log_run reg b).
  - apply IH.
  - rewrite IH. destruct (log_run reg a) as (r1, o1). destruct (log_run r1 b) as (r2, o2). now rewrite app_assoc.
Qed.

Lemma log_run_registry reg evs :
  fst (log_run reg evs) = fold_left (fun r c => get_pctsp_logger (fst c) (snd c) r) (calls_of evs) reg.
Proof.
  revert reg. induction evs as [|[n l|n l t] evs IH]; intro reg; cbn; auto.
  specialize (IH reg). destruct (log_run reg evs). exact IH.
Qed.

(** The lines a program prints, message by message. *)
Lemma log_run_lines a n lvl t b :
  exists o o', snd (log_run new_registry (a ++ LSay n lvl t :: b)) =
    (o ++ repeat t (copies (run_calls (calls_of a)) n lvl) ++ o')%list /\ o = snd (log_run new_registry a).
Proof.
  rewrite log_run_app. pose proof (log_run_registry new_registry a) as R.
  destruct (log_run new_registry a) as (r1, o1). cbn in R. cbn [log_run].
  fold (run_calls (calls_of a)) in R. subst r1.
  destruct (log_run (run_calls (calls_of a)) b) as (r2, o2). cbn. eauto.
Qed.
