(** * P_Collapse: proofs about collapse and the combined heuristic. *)
From Coq Require Import Permutation.
From Verif Require Import Base Graph Spec M_Walk M_Graph M_Extension M_Dijkstra M_Collapse
  P_Base P_Walk P_BFS P_Choose P_Extension P_Dijkstra.
Open Scope nat_scope.

Lemma prize_sum_nil p z : prize_sum p [] z -> z = 0%Z.
Proof. intros H. now inversion H. Qed.

Lemma prize_sum_incl p l l' z z' : Forall (fun x => 0 <= x)%Z p -> NoDup l -> incl l l' ->
  prize_sum p l z -> prize_sum p l' z' -> (z <= z')%Z.
Proof.
  intros Hp Hnd Hi Hz Hz'.
  assert (Hrest : exists rest, Permutation l' (l ++ rest)).
  { clear -Hnd Hi. revert l' Hi. induction l as [|a l IH]; intros l' Hi; [exists l'; auto|].
    inversion Hnd as [|? ? Ha Hnd']; subst.
    assert (Hin : In a l') by (apply Hi; now left).
    apply in_split in Hin as (l1 & l2 & ->).
    destruct (IH Hnd' (l1 ++ l2)) as (rest & Hr).
    { intros x Hx. specialize (Hi x (or_intror Hx)). apply in_app_iff in Hi as [H|[H|H]];
        [apply in_app_iff; auto|congruence|apply in_app_iff; auto]. }
    exists rest. cbn [app]. rewrite <- Hr. symmetry. apply Permutation_middle. }
  destruct Hrest as (rest & Hr). apply (prize_sum_perm _ _ _ _ Hr) in Hz'.
  apply prize_sum_app_inv in Hz' as (z1 & z2 & H1 & H2 & ->).
  assert (z1 = z) by (eapply prize_sum_fun; eauto). subst z1.
  pose proof (prize_sum_nonneg _ _ _ Hp H2). lia.
Qed.

Lemma cyclic_nodup g r m t k i w : closed_tour g r m t -> length t = S k -> 0 < k ->
  cyclic_sub t i w -> length w <= k -> NoDup w.
Proof.
  intros Ht Hl Hk Hn Hlw. unfold cyclic_sub in Hn. rewrite Hl in Hn.
  replace (S k - 1) with k in Hn by lia.
  apply NoDup_nth_error. intros a b Ha Hab. rewrite Hn in Hab by auto.
  assert (Hb' : b < length w).
  { apply nth_error_Some. rewrite <- Hab. apply nth_error_Some.
    pose proof (Nat.mod_upper_bound (i + a) k ltac:(lia)). lia. }
  rewrite Hn in Hab by auto.
  assert (Hnd : NoDup (firstn k t)).
  { destruct Ht as (vs & -> & Hnd & _). change (r :: vs ++ [r]) with ((r :: vs) ++ [r]) in *.
    rewrite app_length in Hl. simpl in Hl. replace k with (length (r :: vs)) by (simpl; lia).
    rewrite firstn_app, Nat.sub_diag, firstn_O, firstn_all, app_nil_r. auto. }
  assert (Hfn : forall q, q < k -> nth_error (firstn k t) q = nth_error t q).
  { intros q Hq. rewrite <- (firstn_skipn k t) at 2. rewrite nth_error_app1; auto.
    rewrite firstn_length. lia. }
  pose proof (Nat.mod_upper_bound (i + a) k ltac:(lia)) as Ba.
  pose proof (Nat.mod_upper_bound (i + b) k ltac:(lia)) as Bb.
  rewrite <- !Hfn in Hab by auto.
  apply (proj1 (NoDup_nth_error _) Hnd) in Hab; [|rewrite firstn_length; lia].
  rewrite <- (Nat.add_mod_idemp_l i a), <- (Nat.add_mod_idemp_l i b) in Hab by lia.
  pose proof (Nat.mod_upper_bound i k ltac:(lia)) as Hik. set (i0 := i mod k) in *.
  assert (forall q, q < k -> (i0 + q) mod k = if i0 + q <? k then i0 + q else i0 + q - k) as Hmq.
  { intros q Hq. destruct (Nat.ltb_spec (i0 + q) k); [now apply Nat.mod_small|].
    apply mod_sub_wrap; lia. }
  rewrite !Hmq in Hab by lia.
  destruct (Nat.ltb_spec (i0 + a) k), (Nat.ltb_spec (i0 + b) k); lia.
Qed.

Lemma cyclic_walk g r m t k i w : closed_tour g r m t -> length t = S k -> 0 < k ->
  cyclic_sub t i w -> is_walk g w /\ Forall (fun v => v < gn g) w.
Proof.
  intros Ht Hl Hk Hn. apply (subpath_walk g r m t k (i mod k) w Ht Hl).
  - apply Nat.mod_upper_bound. lia.
  - intros q Hq. rewrite Nat.add_mod_idemp_l by lia. rewrite Hn by auto. rewrite Hl.
    f_equal. f_equal. lia.
Qed.

Lemma cyclic_incl g r m t k i w : closed_tour g r m t -> length t = S k -> 0 < k ->
  cyclic_sub t i w -> incl w (removelast t).
Proof.
  intros Ht Hl Hk Hn x Hx. apply In_nth_error in Hx as [q Hq].
  pose proof (nth_error_Some_lt _ _ _ Hq). rewrite Hn in Hq by auto. rewrite Hl in Hq.
  replace (S k - 1) with k in Hq by lia.
  pose proof (Nat.mod_upper_bound (i + q) k ltac:(lia)) as Hb.
  destruct Ht as (vs & -> & _). rewrite removelast_cons_snoc.
  cbn [length] in Hl. rewrite app_length in Hl. simpl in Hl.
  change (r :: vs ++ [r]) with ((r :: vs) ++ [r]) in Hq.
  rewrite nth_error_app1 in Hq by (simpl; lia). eapply nth_error_In; eauto.
Qed.

Lemma cyclic_app t i a b : cyclic_sub t i (a ++ b) -> cyclic_sub t i a.
Proof.
  intros H q Hq. rewrite <- H by (rewrite app_length; lia). now rewrite nth_error_app1.
Qed.

Lemma cyclic_snoc t i a x : cyclic_sub t i a ->
  nth_error t ((i + length a) mod (length t - 1)) = Some x -> cyclic_sub t i (a ++ [x]).
Proof.
  intros H Hx q Hq. rewrite app_length in Hq. simpl in Hq.
  destruct (Nat.eq_dec q (length a)) as [->|Hne].
  - rewrite nth_error_app2, Nat.sub_diag by lia. simpl. now rewrite Hx.
  - rewrite nth_error_app1 by lia. apply H. lia.
Qed.

Lemma cyclic_prefix t i w w' : cyclic_sub t i w -> cyclic_sub t i w' -> length w <= length w' ->
  w = firstn (length w) w'.
Proof.
  intros H H' Hl. apply nth_error_ext'; [rewrite firstn_length; lia|].
  intros q Hq. rewrite H by auto. rewrite <- H' by lia.
  rewrite <- (firstn_skipn (length w) w') at 1. apply nth_error_app1. rewrite firstn_length. lia.
Qed.

Section Col.
Context (g : graph) (c p : list Z) (root : nat) (C P : Z).
Context (Hg : graph_ok g) (Hc : costs_within g c 0 C) (Hp : prizes_within g p 0 P).
Context (HC : (0 <= C)%Z) (HP : (0 <= P)%Z).
Context (HCb : (2 * (Z.of_nat (S (gn g)) * C) <= int_max)%Z).
Context (HPb : (3 * (Z.of_nat (S (gn g)) * P) <= int_max)%Z).

Lemma prize_ex v : v < gn g -> exists x, nth_error p v = Some x /\ (0 <= x <= P)%Z.
Proof.
  intros Hv. destruct Hp as [Hl Hf]. destruct (nth_error p v) as [x|] eqn:E.
  - exists x. split; auto. rewrite Forall_forall in Hf. apply Hf. eapply nth_error_In; eauto.
  - apply nth_error_None in E. lia.
Qed.

Lemma p_nonneg : Forall (fun x => 0 <= x)%Z p.
Proof. destruct Hp as [_ Hf]. eapply Forall_impl; [|exact Hf]. simpl. lia. Qed.

Lemma psum_le l z : prize_sum p l z -> length l <= S (gn g) -> (0 <= z <= Z.of_nat (S (gn g)) * P)%Z.
Proof.
  intros H Hl. destruct Hp as [_ Hf]. pose proof (prize_sum_bounds p l z 0 P Hf H) as Hb.
  assert (Z.of_nat (length l) * P <= Z.of_nat (S (gn g)) * P)%Z by (apply Z.mul_le_mono_nonneg_r; lia).
  lia.
Qed.

Lemma P_le : (P <= Z.of_nat (S (gn g)) * P)%Z.
Proof. assert (1 * P <= Z.of_nat (S (gn g)) * P)%Z by (apply Z.mul_le_mono_nonneg_r; lia). lia. Qed.

Lemma costs_sym : costs_within g c (- C) C.
Proof.
  destruct Hc as [Hl Hf]. split; auto. eapply Forall_impl; [|exact Hf]. simpl. lia.
Qed.

Lemma cost_w w : Forall (fun v => v < gn g) w -> is_walk g w -> length w <= S (gn g) ->
  exists z, total_cost g c w = Ok z /\ walk_cost g c w z /\ (0 <= z <= Z.of_nat (S (gn g)) * C)%Z.
Proof.
  intros Hf Hw Hl.
  assert (Hm : (Z.of_nat (length w) * C <= Z.of_nat (S (gn g)) * C)%Z) by (apply Z.mul_le_mono_nonneg_r; lia).
  assert (H0 : (0 <= Z.of_nat (S (gn g)) * C)%Z) by (apply Z.mul_nonneg_nonneg; lia).
  destruct (total_cost_ok g c w C costs_sym Hf Hw) as (z & E & Hz); [lia|].
  exists z. split; [auto|]. split; [auto|].
  pose proof (walk_cost_bounds g c w z 0 C Hc Hz) as Hb.
  assert (C * Z.of_nat (length w - 1) <= Z.of_nat (S (gn g)) * C)%Z.
  { rewrite Z.mul_comm. apply Z.mul_le_mono_nonneg_r; lia. }
  lia.
Qed.

Lemma prize_w l : Forall (fun v => v < gn g) l -> length l <= S (gn g) ->
  exists z, total_prize p l = Ok z /\ prize_sum p l z /\ (0 <= z <= Z.of_nat (S (gn g)) * P)%Z.
Proof.
  intros Hf Hl. destruct Hp as [Hpl Hpf].
  assert (Hm : (Z.of_nat (length l) * P <= Z.of_nat (S (gn g)) * P)%Z) by (apply Z.mul_le_mono_nonneg_r; lia).
  assert (H0 : (0 <= Z.of_nat (S (gn g)) * P)%Z) by (apply Z.mul_nonneg_nonneg; lia).
  destruct (total_prize_ok p P l) as (z & E & Hz).
  - eapply Forall_impl; [|exact Hpf]. simpl. lia.
  - now rewrite Hpl.
  - lia.
  - exists z. split; [auto|]. split; [auto|]. now apply (psum_le l).
Qed.

(** ** getSubPathOverTour *)
Lemma sub_path_loop_ok t s m k i quota : closed_tour g s m t -> length t = S k -> 0 < k ->
  forall rem it sp, rem + length (sp_path sp) = k -> 1 <= it <= S k ->
  nth_error t (if it =? S k then 1 else it) = nth_error t ((i + length (sp_path sp)) mod k) ->
  cyclic_sub t i (sp_path sp) -> sp_path sp <> [] -> prize_sum p (sp_path sp) (sp_prize sp) ->
  (sp_root_seen sp = true <-> In root (sp_path sp)) -> sp_found sp = false ->
  exists sp', sub_path_loop rem t p quota root it sp = Ok sp' /\
    cyclic_sub t i (sp_path sp') /\ sp_path sp' <> [] /\
    (sp_root_seen sp' = true <-> In root (sp_path sp')) /\
    prize_sum p (sp_path sp') (sp_prize sp') /\ length (sp_path sp') <= k /\
    if sp_found sp' then exists x, quota_path p quota t i (sp_path sp') x
    else (length (sp_path sp') = k /\ (sp_prize sp' < quota)%Z) \/
         length (sp_path sp') = k /\ sp' = sp \/
         (quota <= sp_prize sp')%Z /\ sp' = sp.
Proof.
  intros Ht Hl Hk. induction rem as [|rem IH]; intros it sp Hrem Hit Hnext Hcy Hne Hps Hroot Hfound; cbn [sub_path_loop].
  - exists sp. rewrite Hfound. split; [reflexivity|]. split; [auto|]. split; [auto|]. split; [auto|].
    split; [auto|]. split; [lia|]. right; left; split; auto; lia.
  - destruct (Z.ltb_spec (sp_prize sp) quota) as [Hlt|Hge].
    2:{ exists sp. rewrite Hfound. split; [reflexivity|]. split; [auto|]. split; [auto|]. split; [auto|].
        split; [auto|]. split; [lia|]. right; right; auto. }
    rewrite Hl. set (it' := if it =? S k then 1 else it) in *.
    assert (Hit' : 1 <= it' <= k) by (unfold it'; destruct (Nat.eqb_spec it (S k)); lia).
    destruct (nth_error t it') as [cur|] eqn:Ecur; [|apply nth_error_None in Ecur; lia].
    rewrite (it_get_some _ _ _ Ecur). cbn [bind].
    assert (Hcr : cur < gn g).
    { destruct Ht as (_ & _ & _ & _ & _ & Hf). rewrite Forall_forall in Hf. apply Hf. eapply nth_error_In; eauto. }
    destruct (prize_ex cur Hcr) as (pc & Epc & Hpc). unfold prize_of. rewrite (vget_some _ _ _ Epc). cbn [bind].
    destruct (closed_len g s m t Ht) as (k' & Hl' & _ & Hkn & Hlast & Hfirst). assert (k' = k) by lia. subst k'.
    pose proof (psum_le _ _ Hps ltac:(lia)) as Hb. pose proof P_le as HPl.
    rewrite chk_ok by (unfold int_min, int_max in *; lia). cbn [bind].
    assert (Hlt1 : length t - 1 = k) by lia.
    assert (Hcy' : cyclic_sub t i (sp_path sp ++ [cur])).
    { apply cyclic_snoc; auto. rewrite Hlt1. auto. }
    destruct (Z.leb_spec quota (sp_prize sp + pc)) as [Hq|Hq].
    + eexists. split; [reflexivity|]. cbn [sp_path sp_found sp_prize sp_root_seen].
      split; [auto|]. split; [auto|]. split; [auto|]. split; [auto|]. split; [lia|].
      exists cur. split; [auto|]. split; [auto|]. split; [lia|].
      exists (sp_prize sp), pc. auto.
    + destruct (IH (S it') (mkSub (sp_path sp ++ [cur]) (sp_prize sp + pc)
         (orb (cur =? root) (sp_root_seen sp)) false)) as (sp' & E & H1 & H2 & H3 & H4 & H5 & H6).
      * cbn [sp_path]. rewrite app_length. simpl. lia.
      * lia.
      * cbn [sp_path]. rewrite app_length. cbn [length].
        assert (Hidx : exists j, j < k /\ (i + length (sp_path sp)) mod k = j /\
                   (it' = j \/ (it' = k /\ j = 0))).
        { pose proof (Nat.mod_upper_bound (i + length (sp_path sp)) k ltac:(lia)) as Hj.
          set (j := (i + length (sp_path sp)) mod k) in *. exists j. split; [auto|]. split; [auto|].
          destruct (Nat.eq_dec it' k) as [Ek|Ek].
          - right. split; auto. destruct (Nat.eq_dec j 0); auto. exfalso.
            rewrite Ek, Hlast in Ecur. inversion Ecur; subst cur.
            apply (closed_root_pos g s m t j k Ht Hl); try lia. congruence.
          - left. assert (Hs2 : cyclic_sub t it' [cur]).
            { intros [|q] Hq'; [|simpl in Hq'; lia]. rewrite Nat.add_0_r, Hlt1, Nat.mod_small by lia. auto. }
            destruct (Nat.eq_dec it' j); auto. exfalso.
            assert (Hnd : NoDup (firstn k t)).
            { destruct Ht as (vs & Et & Hnd & _). rewrite Et.
              change (s :: vs ++ [s]) with ((s :: vs) ++ [s]) in *.
              rewrite Et in Hl. cbn [length] in Hl. rewrite app_length in Hl. simpl in Hl.
              replace k with (length (s :: vs)) by (simpl; lia).
              rewrite firstn_app, Nat.sub_diag, firstn_O, firstn_all, app_nil_r. auto. }
            assert (Hfn : forall q, q < k -> nth_error (firstn k t) q = nth_error t q).
            { intros q Hq'. rewrite <- (firstn_skipn k t) at 2. rewrite nth_error_app1; auto.
              rewrite firstn_length. lia. }
            apply n. apply (proj1 (NoDup_nth_error _) Hnd); [rewrite firstn_length; lia|].
            rewrite !Hfn by lia. congruence. }
        destruct Hidx as (j & Hj & Ej & Hor).
        replace ((i + (length (sp_path sp) + 1)) mod k) with ((j + 1) mod k)
          by (rewrite <- Ej, Nat.add_mod_idemp_l by lia; f_equal; lia).
        destruct Hor as [->|[-> ->]].
        -- destruct (Nat.eqb_spec (S j) (S k)); [lia|].
           destruct (Nat.eq_dec (S j) k) as [Ek|Ek].
           ++ replace (j + 1) with k by lia. rewrite Nat.mod_same by lia. rewrite Ek. congruence.
           ++ rewrite Nat.mod_small by lia. f_equal. lia.
        -- rewrite Nat.eqb_refl.
           destruct (Nat.eq_dec k 1) as [->|Hk1].
           ++ change ((0 + 1) mod 1) with 0. congruence.
           ++ rewrite Nat.mod_small by lia. reflexivity.
      * exact Hcy'.
      * cbn [sp_path]. destruct (sp_path sp); discriminate.
      * cbn [sp_path sp_prize]. apply prize_sum_app; auto. rewrite <- (Z.add_0_r pc). econstructor; [auto|constructor].
      * cbn [sp_path sp_root_seen]. rewrite orb_true_iff, Nat.eqb_eq, in_app_iff, Hroot. simpl. tauto.
      * reflexivity.
      * exists sp'. split; [exact E|]. split; [auto|]. split; [auto|]. split; [auto|]. split; [auto|]. split; [auto|].
        destruct (sp_found sp'); auto.
        destruct H6 as [H6|[[H6 ->]|[H6 ->]]]; [left; auto| |].
        -- left. cbn [sp_path sp_prize] in *. auto.
        -- cbn [sp_prize] in H6. lia.
Qed.

Definition sub_found (t : list nat) (quota : Z) (i : nat) (sp : subpath) : Prop :=
  cyclic_sub t i (sp_path sp) /\ sp_path sp <> [] /\
  (sp_root_seen sp = true <-> In root (sp_path sp)) /\
  prize_sum p (sp_path sp) (sp_prize sp) /\
  (sp_found sp = true -> exists x, quota_path p quota t i (sp_path sp) x) /\
  (forall w x, quota_path p quota t i w x -> sp_found sp = true /\ sp_path sp = w).

Lemma quota_path_fun t quota i w x w' x' : quota_path p quota t i w x -> quota_path p quota t i w' x' ->
  length w < length w' -> False.
Proof.
  intros (H1 & H2 & H3 & z & y & H4 & H5 & H6 & H7) (H1' & H2' & H3' & z' & y' & H4' & H5' & H6' & H7') Hlt.
  assert (E : w ++ [x] = firstn (length (w ++ [x])) w').
  { apply cyclic_prefix with (t := t) (i := i); auto.
    - eapply cyclic_app; eauto.
    - rewrite app_length. simpl. lia. }
  rewrite <- (firstn_skipn (length (w ++ [x])) w') in H4'. rewrite <- E in H4'.
  apply prize_sum_app_inv in H4' as (z1 & z2 & Hz1 & Hz2 & ->).
  apply prize_sum_app_inv in Hz1 as (z3 & z4 & Hz3 & Hz4 & ->).
  assert (z3 = z) by (eapply prize_sum_fun; eauto). subst z3.
  apply prize_sum_cons_inv in Hz4 as (y0 & z5 & Hy0 & Hz5 & ->). assert (y0 = y) by congruence. subst y0.
  pose proof (prize_sum_nonneg _ _ _ p_nonneg Hz2). pose proof (prize_sum_nonneg _ _ _ p_nonneg Hz5). lia.
Qed.

Lemma get_sub_path_ok t s m k i quota : closed_tour g s m t -> length t = S k -> 0 < k -> i <= k ->
  exists sp, get_sub_path_over_tour t i p quota root = Ok sp /\ sub_found t quota i sp.
Proof.
  intros Ht Hl Hk Hi. unfold get_sub_path_over_tour.
  destruct (nth_error t i) as [f|] eqn:Ef; [|apply nth_error_None in Ef; lia].
  rewrite (it_get_some _ _ _ Ef). cbn [bind].
  assert (Hfr : f < gn g).
  { destruct Ht as (_ & _ & _ & _ & _ & Hf). rewrite Forall_forall in Hf. apply Hf. eapply nth_error_In; eauto. }
  destruct (prize_ex f Hfr) as (pf & Epf & Hpf). unfold prize_of. rewrite (vget_some _ _ _ Epf). cbn [bind].
  destruct (closed_len g s m t Ht) as (k' & Hl' & _ & Hkn & Hlast & Hfirst). assert (k' = k) by lia. subst k'.
  assert (Hlt1 : length t - 1 = k) by lia.
  assert (Hcy0 : cyclic_sub t i [f]).
  { intros [|q] Hq; [|simpl in Hq; lia]. rewrite Nat.add_0_r, Hlt1. cbn [nth_error].
    destruct (Nat.eq_dec i k) as [->|Hne]; [rewrite Nat.mod_same by lia; congruence|].
    rewrite Nat.mod_small by lia. auto. }
  destruct (sub_path_loop_ok t s m k i quota Ht Hl Hk (length t - 1 - 1) (S i)
      (mkSub [f] pf (f =? root) false)) as (sp & E & H1 & H2 & H3 & H4 & H5 & H6); cbn [sp_path sp_prize sp_root_seen sp_found].
  - simpl. lia.
  - lia.
  - cbn [length]. destruct (Nat.eqb_spec (S i) (S k)) as [Ei|Ei].
    + assert (i = k) by lia. subst i. replace (k + 1) with (1 + 1 * k) by lia. rewrite Nat.mod_add by lia.
      destruct (Nat.eq_dec k 1) as [->|]; [change (1 mod 1) with 0; congruence|]. now rewrite Nat.mod_small by lia.
    + destruct (Nat.eq_dec (S i) k) as [Ek|Ek].
      * replace (i + 1) with k by lia. rewrite Nat.mod_same by lia. rewrite Ek. congruence.
      * rewrite Nat.mod_small by lia. f_equal. lia.
  - auto.
  - discriminate.
  - rewrite <- (Z.add_0_r pf). econstructor; [auto|constructor].
  - rewrite Nat.eqb_eq. simpl. tauto.
  - reflexivity.
  - exists sp. split; [exact E|]. split; [auto|]. split; [auto|]. split; [auto|]. split; [auto|].
    split.
    + intros Hf. rewrite Hf in H6. exact H6.
    + intros w x Hw. destruct (sp_found sp).
      * split; auto. destruct H6 as (x' & Hx').
        destruct (lt_eq_lt_dec (length w) (length (sp_path sp))) as [[Hlt|Heq]|Hlt].
        -- exfalso. exact (quota_path_fun t quota i w x _ _ Hw Hx' Hlt).
        -- pose proof (cyclic_app _ _ _ _ (proj1 Hw)) as Hcw.
           pose proof (cyclic_prefix t i w (sp_path sp) Hcw H1 ltac:(lia)) as Hpre.
           rewrite Heq, firstn_all in Hpre. auto.
        -- exfalso. exact (quota_path_fun t quota i (sp_path sp) x' _ _ Hx' Hw Hlt).
      * exfalso. destruct Hw as (Hcw & Hnw & Hlw & z & y & Hz & Hy & Hzq & Hq).
        assert (Hcase : forall w2, cyclic_sub t i w2 -> length (w ++ [x]) <= length w2 ->
          forall z2, prize_sum p w2 z2 -> (quota <= z2)%Z).
        { intros w2 Hc2 Hl2 z2 Hz2.
          pose proof (cyclic_prefix t i _ w2 Hcw Hc2 Hl2) as Hpre.
          rewrite <- (firstn_skipn (length (w ++ [x])) w2), <- Hpre in Hz2.
          apply prize_sum_app_inv in Hz2 as (z3 & z4 & Hz3 & Hz4 & ->).
          apply prize_sum_app_inv in Hz3 as (z5 & z6 & Hz5 & Hz6 & ->).
          assert (z5 = z) by (eapply prize_sum_fun; eauto). subst z5.
          apply prize_sum_cons_inv in Hz6 as (y0 & z7 & Hy0 & Hz7 & ->). assert (y0 = y) by congruence. subst y0.
          pose proof (prize_sum_nonneg _ _ _ p_nonneg Hz4). pose proof (prize_sum_nonneg _ _ _ p_nonneg Hz7). lia. }
        assert (Hlwx : length (w ++ [x]) <= k) by (rewrite app_length; simpl; lia).
        destruct H6 as [[H6 H7]|[[H6 ->]|[H6 ->]]].
        -- specialize (Hcase (sp_path sp) H1 ltac:(lia) _ H4). lia.
        -- cbn [sp_path length] in *. destruct w as [|w0 w]; [congruence|]. rewrite app_length in Hlwx. cbn [length] in *. lia.
        -- cbn [sp_prize sp_path] in *.
           assert (Hpre : [f] = firstn 1 (w ++ [x])).
           { apply (cyclic_prefix t i [f] (w ++ [x])); auto. rewrite app_length. simpl. lia. }
           destruct w as [|w0 w]; [congruence|]. simpl in Hpre. inversion Hpre; subst w0.
           apply prize_sum_cons_inv in Hz as (y0 & z7 & Hy0 & Hz7 & ->). assert (y0 = pf) by congruence. subst y0.
           pose proof (prize_sum_nonneg _ _ _ p_nonneg Hz7). lia.
Qed.

(** ** findCollapsePaths *)
Definition good_collapse (internal : list nat) (quota : Z) (ext : list nat) : Prop :=
  exists a b l mid, internal = a :: l ++ [b] /\ ext = b :: mid ++ [a] /\ mid <> [] /\
    NoDup mid /\ (forall v, In v mid -> ~ In v internal) /\ is_walk g ext /\
    Forall (fun v => v < gn g) ext /\
    exists z, prize_sum p (internal ++ mid) z /\ (quota <= z)%Z.

Lemma ends_cases (internal : list nat) target l0 : internal = target :: l0 -> NoDup internal ->
  (internal = [target] /\ last internal target = target) \/
  exists l b, internal = target :: l ++ [b] /\ last internal target = b /\ b <> target.
Proof.
  intros -> Hnd. destruct (exists_last (l := target :: l0)) as (l & b & E); [discriminate|].
  destruct l as [|a l].
  - left. simpl in E. inversion E; subst. auto.
  - right. simpl in E. inversion E; subst a l0. exists l, b. split; [auto|].
    change (target :: l ++ [b]) with ((target :: l) ++ [b]). rewrite last_last. split; auto.
    intros ->. apply NoDup_cons_iff in Hnd as [Hn _]. apply Hn. apply in_app_iff. simpl; auto.
Qed.

Lemma collapse_vertex_ok internal target l0 quota prize inp :
  internal = target :: l0 -> NoDup internal -> Forall (fun v => v < gn g) internal ->
  prize_sum p internal prize -> length inp = gn g ->
  (forall v, In v internal -> is_true_at inp v) ->
  (forall v, v < gn g -> ~ In v internal -> is_false_at inp v) ->
  exists l, collapse_vertex_paths g p quota (last internal target) target inp prize = Ok l /\
    (forall ext, In ext l -> good_collapse internal quota ext) /\
    (forall ext, vertex_collapse g p quota internal ext -> In ext l).
Proof.
  intros Ei Hnd Hf Hps Hli Hti Hfi. unfold collapse_vertex_paths.
  set (source := last internal target).
  assert (Hsin : In source internal).
  { unfold source. destruct (ends_cases internal target l0 Ei Hnd) as [[E1 E2]|(l & b & E1 & E2 & _)]; rewrite E2, E1.
    - now left.
    - right. apply in_app_iff; simpl; auto. }
  rewrite Forall_forall in Hf.
  assert (Htin : In target internal) by (rewrite Ei; now left).
  rewrite adjacent_ok by auto. cbn [bind].
  assert (Hlen : length internal <= gn g) by (apply NoDup_length_le; auto; now apply Forall_forall).
  pose proof (psum_le _ _ Hps ltac:(lia)) as Hb. pose proof P_le as HPl.
  assert (Hprize : forall v x, nth_error p v = Some x -> prize_sum p (internal ++ [v]) (prize + x)%Z).
  { intros v x Hx. apply prize_sum_app; auto. rewrite <- (Z.add_0_r x). econstructor; [auto|constructor]. }
  destruct (foldM_inv (fun acc v =>
           do oe <- edge g v target;
           do pv <- prize_of p v;
           do sum <- chk (prize + pv);
           match oe with
           | None => Ok acc
           | Some _ =>
               do iv <- vget inp v;
               Ok (if andb (negb iv) (andb (quota <=? sum)%Z (negb (Nat.eqb source target)))
                   then acc ++ [[source; v; target]] else acc)
           end)
    (fun done acc => (forall ext, In ext acc -> good_collapse internal quota ext) /\
       (forall v, In v done -> vertex_collapse g p quota internal [source; v; target] -> In [source; v; target] acc))
    (nbrs g source) []) as (l & E & H1 & H2).
  - split; [intros ext []|intros v []].
  - intros done v rest acc En (Hacc & Hall).
    assert (Hev : is_edge g source v) by (apply nbrs_In; rewrite En; apply in_app_iff; simpl; auto).
    pose proof (is_edge_range g _ _ Hg Hev) as [_ Hvr].
    destruct (edge_total g v target Hvr) as [oe Eo]. rewrite Eo. cbn [bind].
    destruct (prize_ex v Hvr) as (x & Ex & Hx). unfold prize_of. rewrite (vget_some _ _ _ Ex). cbn [bind].
    rewrite chk_ok by (unfold int_min, int_max in *; lia). cbn [bind].
    destruct oe as [e|].
    + destruct (vget_ok inp v) as (iv & Eiv & Eniv); [lia|]. rewrite Eiv. cbn [bind].
      eexists; split; [reflexivity|].
      destruct iv.
      * cbn [negb andb]. split; [auto|]. intros w Hw Hvc. apply in_app_iff in Hw as [Hw|[<-|[]]]; [now apply Hall|].
        exfalso. destruct Hvc as (a & b & l & v' & _ & Ee & Hn & _). inversion Ee; subst v'.
        pose proof (Hfi v Hvr Hn) as Hff. unfold is_false_at in Hff. congruence.
      * cbn [negb andb].
        assert (Hvn : ~ In v internal).
        { intros Hin. specialize (Hti v Hin). unfold is_true_at in Hti. congruence. }
        destruct (ends_cases internal target l0 Ei Hnd) as [[E1 E2]|(l & b & E1 & E2 & Hbt)].
        -- unfold source at 1. rewrite E2, Nat.eqb_refl. cbn [negb]. rewrite andb_false_r.
           split; [auto|]. intros w Hw Hvc. exfalso.
           destruct Hvc as (a & b & l & v' & Ee & _). rewrite E1 in Ee. destruct l; discriminate.
        -- fold source in E2. destruct (Nat.eqb_spec source target) as [Hst|Hst]; [congruence|].
           cbn [negb]. rewrite andb_true_r.
           destruct (Z.leb_spec quota (prize + x)) as [Hq|Hq].
           ++ split.
              ** intros ext Hext. apply in_app_iff in Hext as [Hext|[<-|[]]]; [now apply Hacc|].
                 exists target, source, l, [v]. split; [congruence|]. split; [reflexivity|].
                 split; [discriminate|]. split; [repeat constructor; simpl; tauto|].
                 split; [intros w [<-|[]]; auto|].
                 split; [constructor; auto; constructor; [|constructor]; exists e; apply (edge_Some g v target e Eo)|].
                 split; [repeat constructor; auto|].
                 eexists; split; [apply Hprize; exact Ex|lia].
              ** intros w Hw Hvc. apply in_app_iff. apply in_app_iff in Hw as [Hw|[<-|[]]]; [left; now apply Hall|simpl; auto].
           ++ split; [auto|]. intros w Hw Hvc. apply in_app_iff in Hw as [Hw|[<-|[]]]; [now apply Hall|].
              exfalso. destruct Hvc as (a & b' & l' & v' & _ & Ee & _ & _ & _ & z & Hz & Hqz). inversion Ee; subst v'.
              assert (z = prize + x)%Z by (eapply prize_sum_fun; eauto). lia.
    + eexists; split; [reflexivity|]. split; [auto|].
      intros w Hw Hvc. apply in_app_iff in Hw as [Hw|[<-|[]]]; [now apply Hall|].
      exfalso. destruct Hvc as (a & b' & l' & v' & _ & Ee & _ & _ & Hva & _). inversion Ee; subst v' b' a.
      now apply (edge_None g v target Eo).
  - exists l. split; [exact E|]. split; [exact H1|].
    intros ext Hvc. pose proof Hvc as (a & b & l' & v & Ee & -> & Hn & Hbv & _).
    assert (a = target) by (rewrite Ei in Ee; now inversion Ee). subst a.
    assert (b = source).
    { unfold source. rewrite Ee. change (target :: l' ++ [b]) with ((target :: l') ++ [b]). now rewrite last_last. }
    subst b. apply H2; auto. now apply nbrs_In.
Qed.

Context (tb : tiebreak) (Htb : good_pick tb).

Lemma collapse_shortest_ok internal target l0 quota prize inp :
  internal = target :: l0 -> NoDup internal -> Forall (fun v => v < gn g) internal ->
  prize_sum p internal prize -> (prize < quota)%Z -> length inp = gn g ->
  (forall v, In v internal -> is_true_at inp v) ->
  (forall v, v < gn g -> ~ In v internal -> is_false_at inp v) ->
  exists l, collapse_shortest_path tb g c p quota (last internal target) target inp prize = Ok l /\
    (forall ext, In ext l -> good_collapse internal quota ext).
Proof.
  intros Ei Hnd Hf Hps Hpq Hli Hti Hfi. unfold collapse_shortest_path.
  set (source := last internal target).
  assert (Hsin : In source internal).
  { unfold source. destruct (ends_cases internal target l0 Ei Hnd) as [[E1 E2]|(l & b & E1 & E2 & _)]; rewrite E2, E1.
    - now left.
    - right. apply in_app_iff; simpl; auto. }
  rewrite Forall_forall in Hf.
  assert (Htin : In target internal) by (rewrite Ei; now left).
  pose proof (Hf _ Hsin) as Hsr. pose proof (Hf _ Htin) as Htr.
  rewrite vset_ok by lia. cbn [bind]. rewrite vset_ok by (rewrite upd_length; lia). cbn [bind].
  set (mark := upd (upd inp source false) target false).
  assert (Hml : length mark = gn g) by (unfold mark; now rewrite !upd_length).
  assert (HnC : (Z.of_nat (gn g) * C < int_max)%Z).
  { assert (Z.of_nat (gn g) * C <= Z.of_nat (S (gn g)) * C)%Z by (apply Z.mul_le_mono_nonneg_r; lia).
    unfold int_max in *. lia. }
  destruct (dijkstra_spec tb Htb g c source target mark C Hg Hc HC HnC Hml Hsr Htr) as (found & st & E & H).
  rewrite E. cbn [bind]. destruct found; [|exists []; split; [auto|intros ext []]].
  destruct H as (path & z & Ep & Hvia & Hndp & Hac & Hfp & _ & _). rewrite Ep. cbn [bind].
  assert (Hlp : length path <= gn g) by now apply NoDup_length_le.
  destruct (prize_w path Hfp ltac:(lia)) as (pp & Epp & Hpp & Hppb). rewrite Epp. cbn [bind].
  assert (Hlen : length internal <= gn g) by (apply NoDup_length_le; auto; now apply Forall_forall).
  pose proof (psum_le _ _ Hps ltac:(lia)) as Hb. pose proof P_le as HPl.
  rewrite chk_ok by (unfold int_min, int_max in *; lia). cbn [bind].
  destruct (prize_ex source Hsr) as (ps & Eps & Hpsb). unfold prize_of. rewrite (vget_some _ _ _ Eps). cbn [bind].
  rewrite chk_ok by (unfold int_min, int_max in *; lia). cbn [bind].
  destruct (prize_ex target Htr) as (pt & Ept & Hptb). rewrite (vget_some _ _ _ Ept). cbn [bind].
  rewrite chk_ok by (unfold int_min, int_max in *; lia). cbn [bind].
  eexists; split; [reflexivity|].
  intros ext Hext. destruct (Z.leb_spec quota (prize + pp - ps - pt)) as [Hq|Hq]; [|destruct Hext].
  destruct Hext as [<-|[]].
  destruct Hvia as (Hh & Hlast & Hok).
  destruct path as [|s0 path]; [discriminate|]. cbn [hd_error] in Hh. inversion Hh; subst s0.
  cbn [tl] in Hok.
  apply prize_sum_cons_inv in Hpp as (ps' & pr & Hps' & Hpr & ->). assert (ps' = ps) by congruence. subst ps'.
  destruct path as [|p0 path].
  { cbn [last] in Hlast. exfalso.
    apply prize_sum_nil in Hpr.
    destruct (ends_cases internal target l0 Ei Hnd) as [[E1 E2]|(l & b & E1 & E2 & Hbt)].
    - rewrite E1 in Hps. apply prize_sum_cons_inv in Hps as (pt' & p0 & Hpt' & Hp0 & ->). apply prize_sum_nil in Hp0.
      assert (pt' = pt) by congruence. assert (ps = pt) by congruence. lia.
    - fold source in E2. congruence. }
  destruct (exists_last (l := p0 :: path)) as (mid & b & Em); [discriminate|].
  rewrite Em in *.
  assert (Hbt : b = target).
  { rewrite <- Hlast. change (source :: mid ++ [b]) with ((source :: mid) ++ [b]). now rewrite last_last. }
  subst b.
  assert (Hst : source <> target).
  { intros Est. apply NoDup_cons_iff in Hndp as [Hn _]. apply Hn. rewrite Est. apply in_app_iff; simpl; auto. }
  destruct (ends_cases internal target l0 Ei Hnd) as [[E1 E2]|(l & b & E1 & E2 & Hbt)];
    [unfold source in Hst; congruence|]. fold source in E2. subst b.
  apply prize_sum_app_inv in Hpr as (pm & pt1 & Hpm & Hpt1 & ->).
  apply prize_sum_cons_inv in Hpt1 as (pt2 & p3 & Hpt2 & Hp3 & ->). assert (pt2 = pt) by congruence. subst pt2.
  apply prize_sum_nil in Hp3.
  exists target, source, l, mid. split; [auto|]. split; [auto|].
  apply NoDup_cons_iff in Hndp as [Hsn Hndp]. apply NoDup_app_iff in Hndp as (Hndm & _ & Hdm).
  split.
  { intros Emid. rewrite Emid in Hpm. apply prize_sum_nil in Hpm. lia. }
  split; [auto|]. split.
  { intros v Hv Hin.
    assert (Hvs : v <> source) by (intros ->; apply Hsn; apply in_app_iff; auto).
    assert (Hvt : v <> target) by (intros ->; apply (Hdm target Hv); simpl; auto).
    assert (Hokv : is_false_at mark v) by (apply Hok; apply in_app_iff; auto).
    specialize (Hti v Hin). unfold is_false_at, is_true_at, mark in *.
    rewrite !upd_other in Hokv by auto. congruence. }
  split; [eapply any_cost_walk; eauto|]. split; [auto|].
  exists (prize + pm)%Z. split; [apply prize_sum_app; auto|]. lia.
Qed.

Lemma find_collapse_ok internal quota shortest prize :
  internal <> [] -> NoDup internal -> Forall (fun v => v < gn g) internal ->
  prize_sum p internal prize -> (prize < quota)%Z ->
  exists l, find_collapse_paths tb g internal c p quota shortest = Ok l /\
    (forall ext, In ext l -> good_collapse internal quota ext) /\
    (forall ext, vertex_collapse g p quota internal ext -> In ext l).
Proof.
  intros Hne Hnd Hf Hps Hpq. unfold find_collapse_paths.
  destruct internal as [|target l0] eqn:Ei; [congruence|]. rewrite <- Ei in *. 
  assert (Hlen : length internal <= gn g) by (apply NoDup_length_le; auto).
  destruct (prize_w internal Hf ltac:(lia)) as (pz & Epz & Hpz & _). rewrite Epz. cbn [bind].
  assert (pz = prize) by (eapply prize_sum_fun; eauto). subst pz.
  destruct (mark_tour (gn g) internal Hf) as (inp & Em & Hli & Hti & Hfi).
  unfold num_vertices. rewrite Em. cbn [bind].
  destruct (collapse_vertex_ok internal target l0 quota prize inp Ei Hnd Hf Hps Hli Hti Hfi) as (l1 & E1 & H1 & H2).
  rewrite E1. cbn [bind]. destruct shortest.
  - destruct (collapse_shortest_ok internal target l0 quota prize inp Ei Hnd Hf Hps Hpq Hli Hti Hfi) as (l2 & E2 & H3).
    rewrite E2. cbn [bind]. eexists; split; [reflexivity|]. split.
    + intros ext Hin. apply in_app_iff in Hin as [Hin|Hin]; auto.
    + intros ext Hv. apply in_app_iff; auto.
  - cbn [bind]. rewrite app_nil_r. eexists; split; [reflexivity|]. auto.
Qed.

(** ** the choice *)
Lemma choose_collapse_ok internal quota ic best0 paths :
  NoDup internal -> walk_cost g c internal ic -> Forall (fun v => v < gn g) internal ->
  (forall ext, In ext paths -> good_collapse internal quota ext) ->
  exists b cost, foldM (collapse_choose g c ic) paths (None, best0) = Ok (b, cost) /\
    (cost <= best0)%Z /\
    (forall ext z, In ext paths -> walk_cost g c ext z -> (cost <= z + ic)%Z) /\
    match b with
    | None => cost = best0
    | Some ext => In ext paths /\ exists z, walk_cost g c ext z /\ cost = (z + ic)%Z
    end.
Proof.
  intros Hnd Hic Hf Hgood.
  destruct (foldM_inv (collapse_choose g c ic)
    (fun done st => let '(b, cost) := st in
      (cost <= best0)%Z /\
      (forall ext z, In ext done -> walk_cost g c ext z -> (cost <= z + ic)%Z) /\
      match b with
      | None => cost = best0
      | Some ext => In ext done /\ exists z, walk_cost g c ext z /\ cost = (z + ic)%Z
      end) paths (None, best0)) as ([b cost] & E & H).
  - split; [lia|]. split; [intros ext z []|auto].
  - intros done ext rest [b cost] Ep (H1 & H2 & H3).
    destruct (Hgood ext) as (a & b0 & l & mid & E1 & E2 & Hm & Hndm & Hd & Hw & Hfe & Hz).
    { rewrite Ep. apply in_app_iff; simpl; auto. }
    assert (Hlm : length internal + length mid <= gn g).
    { rewrite <- app_length. apply NoDup_length_le.
      - apply NoDup_app_iff. split; [auto|]. split; [auto|]. intros x Hx Hx'. apply (Hd x Hx' Hx).
      - apply Forall_app. split; [auto|]. rewrite E2 in Hfe. inversion Hfe as [|? ? _ Hfe']; subst.
        apply Forall_app in Hfe' as [Hfe' _]. auto. }
    assert (Hli : 2 <= length internal).
    { rewrite E1. simpl. rewrite app_length. simpl. lia. }
    assert (Hle : length ext <= S (gn g)).
    { rewrite E2. cbn [length]. rewrite app_length. cbn [length]. lia. }
    destruct (cost_w ext Hfe Hw Hle) as (ec & Ee & Hec & Hecb).
    unfold collapse_choose. rewrite Ee. cbn [bind].
    assert (Hicb : (0 <= ic <= Z.of_nat (S (gn g)) * C)%Z).
    { pose proof (walk_cost_bounds g c internal ic 0 C Hc Hic) as Hb.
      assert (C * Z.of_nat (length internal - 1) <= Z.of_nat (S (gn g)) * C)%Z.
      { rewrite Z.mul_comm. apply Z.mul_le_mono_nonneg_r; lia. } lia. }
    rewrite chk_ok by (unfold int_min, int_max in *; lia). cbn [bind].
    destruct (Z.ltb_spec (ec + ic) cost) as [Hlt|Hge]; (eexists; split; [reflexivity|]).
    + split; [lia|]. split.
      * intros ext' z Hin Hz'. apply in_app_iff in Hin as [Hin|[<-|[]]].
        -- specialize (H2 ext' z Hin Hz'). lia.
        -- assert (z = ec) by (eapply walk_cost_fun; eauto). lia.
      * split; [apply in_app_iff; simpl; auto|]. exists ec. auto.
    + split; [lia|]. split.
      * intros ext' z Hin Hz'. apply in_app_iff in Hin as [Hin|[<-|[]]]; [now apply (H2 ext')|].
        assert (z = ec) by (eapply walk_cost_fun; eauto). lia.
      * destruct b; auto. destruct H3 as [H3 H4]. split; auto. apply in_app_iff; auto.
  - exists b, cost. split; [exact E|]. exact H.
Qed.

Lemma join_collapse internal quota ext ic ec : NoDup internal -> is_walk g internal ->
  Forall (fun v => v < gn g) internal -> In root internal ->
  good_collapse internal quota ext -> walk_cost g c internal ic -> walk_cost g c ext ec ->
  exists a, closed_tour g a 2 (internal ++ tl ext) /\ In root (internal ++ tl ext) /\
    walk_cost g c (internal ++ tl ext) (ec + ic) /\
    exists z, tour_prize p (internal ++ tl ext) z /\ (quota <= z)%Z.
Proof.
  intros Hnd Hw Hf Hr (a & b & l & mid & E1 & E2 & Hm & Hndm & Hd & Hwe & Hfe & z & Hz & Hq) Hic Hec.
  exists a. subst ext. cbn [tl].
  assert (Eint : internal ++ mid ++ [a] = a :: (l ++ [b] ++ mid) ++ [a]).
  { rewrite E1. cbn [app]. rewrite <- !app_assoc. reflexivity. }
  assert (Ejoin : internal ++ mid ++ [a] = (a :: l) ++ b :: mid ++ [a]).
  { rewrite E1. cbn [app]. rewrite <- !app_assoc. reflexivity. }
  assert (Enodup : a :: l ++ [b] ++ mid = internal ++ mid).
  { rewrite E1. cbn [app]. rewrite <- !app_assoc. reflexivity. }
  split; [|split; [|split]].
  - exists (l ++ [b] ++ mid). split; [exact Eint|]. split.
    { rewrite Enodup. apply NoDup_app_iff. split; [auto|]. split; [auto|]. intros x Hx Hx'. apply (Hd x Hx' Hx). }
    split.
    { rewrite !app_length. destruct mid; [congruence|]. simpl. lia. }
    split.
    { rewrite Ejoin. apply is_walk_join; auto. now rewrite E1 in Hw. }
    apply Forall_app. split; [auto|]. inversion Hfe; auto.
  - apply in_app_iff; auto.
  - rewrite Ejoin. rewrite Z.add_comm. apply walk_cost_join; auto. now rewrite E1 in Hic.
  - exists z. split; auto. unfold tour_prize. rewrite app_assoc, removelast_snoc. auto.
Qed.

(** ** collapse *)
Lemma collapse_ok t s m quota shortest : closed_tour g s m t -> m <= 2 -> In root t ->
  exists t' z z', collapse tb g t c p quota root shortest = Ok t' /\ closed_tour g root m t' /\
    walk_cost g c t z /\ walk_cost g c t' z' /\ (z' <= z)%Z /\
    (forall pz, tour_prize p t pz -> (quota <= pz)%Z ->
        exists pz', tour_prize p t' pz' /\ (quota <= pz')%Z) /\
    (forall pz, tour_prize p t pz -> (pz < quota)%Z -> t' = reorder_tour_from_root t root) /\
    (forall i w x ext zw ze, i < length t -> quota_path p quota t i w x -> In root w ->
        vertex_collapse g p quota w ext -> walk_cost g c w zw -> walk_cost g c ext ze -> (z' <= zw + ze)%Z).
Proof.
  intros Ht Hm Hr. unfold collapse.
  destruct (closed_len g s m t Ht) as (k & Hl & Hmk & Hkn & Hlast & Hfirst).
  pose proof Ht as (_ & _ & _ & _ & Hwt & Hft).
  destruct (cost_w t Hft Hwt ltac:(lia)) as (z & Ez & Hz & _). rewrite Ez. cbn [bind].
  destruct (foldM_inv (collapse_at tb g t c p quota root shortest)
    (fun done st => let '(best, cost) := st in
      (exists s', closed_tour g s' m best) /\ In root best /\ walk_cost g c best cost /\ (cost <= z)%Z /\
      (best = t \/
       (exists pz', tour_prize p best pz' /\ (quota <= pz')%Z) /\
       (forall pz, tour_prize p t pz -> (quota <= pz)%Z)) /\
      (forall i w x ext zw ze, In i done -> quota_path p quota t i w x -> In root w ->
        vertex_collapse g p quota w ext -> walk_cost g c w zw -> walk_cost g c ext ze -> (cost <= zw + ze)%Z))
    (rev (seq 0 (length t))) (t, z)) as ([best cost] & E & H).
  - split; [exists s; auto|]. split; [auto|]. split; [auto|]. split; [lia|]. split; [auto|]. intros i w x ext zw ze [].
  - intros done i rest [best cost] Ed (Hb1 & Hb2 & Hb3 & Hb4 & Hb5 & Hb6).
    assert (Hi : i <= k).
    { assert (Hin : In i (rev (seq 0 (length t)))) by (rewrite Ed; apply in_app_iff; simpl; auto).
      apply in_rev, in_seq in Hin. lia. }
    unfold collapse_at.
    destruct (get_sub_path_ok t s m k i quota Ht Hl ltac:(lia) Hi) as (sp & Esp & Hcy & Hne & Hroot & Hps & Hfnd & Huniq).
    rewrite Esp. cbn [bind].
    destruct (andb (sp_root_seen sp) (sp_found sp)) eqn:Eand.
    + apply andb_true_iff in Eand as [Er Efd]. apply Hroot in Er.
      destruct (Hfnd Efd) as (x & Hqp).
      pose proof Hqp as (Hcx & _ & Hlx & pz & y & Hpz & Hy & Hlt & Hge).
      assert (pz = sp_prize sp) by (eapply prize_sum_fun; eauto). subst pz.
      assert (Hlk : length (sp_path sp) <= k) by lia.
      assert (Hnd : NoDup (sp_path sp)) by (apply (cyclic_nodup g s m t k i); auto; lia).
      destruct (cyclic_walk g s m t k i (sp_path sp) Ht Hl ltac:(lia) Hcy) as [Hwp Hfp].
      destruct (find_collapse_ok (sp_path sp) quota shortest (sp_prize sp) Hne Hnd Hfp Hps Hlt) as (paths & Ep & Hg1 & Hg2).
      rewrite Ep. cbn [bind].
      destruct (cost_w (sp_path sp) Hfp Hwp ltac:(lia)) as (ic & Eic & Hic & _). rewrite Eic. cbn [bind].
      destruct (choose_collapse_ok (sp_path sp) quota ic cost paths Hnd Hic Hfp Hg1) as (b & cost' & Ech & Hle & Hmin & Hb).
      rewrite Ech. cbn [bind].
      assert (Hfeas : forall pz, tour_prize p t pz -> (quota <= pz)%Z).
      { intros pz' Hpz'. unfold tour_prize in Hpz'.
        assert (Hsx : prize_sum p (sp_path sp ++ [x]) (sp_prize sp + y)%Z).
        { apply prize_sum_app; auto. rewrite <- (Z.add_0_r y). econstructor; [auto|constructor]. }
        assert (sp_prize sp + y <= pz')%Z; [|lia].
        eapply prize_sum_incl; [exact p_nonneg| | |exact Hsx|exact Hpz'].
        - apply (cyclic_nodup g s m t k i); auto; [lia|]. rewrite app_length. simpl. lia.
        - apply (cyclic_incl g s m t k i); auto; lia. }
      assert (Hnew : forall i' w x' ext zw ze, In i' (done ++ [i]) -> quota_path p quota t i' w x' -> In root w ->
        vertex_collapse g p quota w ext -> walk_cost g c w zw -> walk_cost g c ext ze -> (cost' <= zw + ze)%Z).
      { intros i' w x' ext zw ze Hin Hqw Hrw Hvc Hzw Hze. apply in_app_iff in Hin as [Hin|[<-|[]]].
        - specialize (Hb6 i' w x' ext zw ze Hin Hqw Hrw Hvc Hzw Hze). lia.
        - destruct (Huniq w x' Hqw) as [_ Ew]. subst w.
          assert (zw = ic) by (eapply walk_cost_fun; eauto). subst zw.
          specialize (Hmin ext ze (Hg2 ext Hvc) Hze). lia. }
      destruct b as [ext|].
      * destruct Hb as (Hin & ec & Hec & Ecost).
        eexists; split; [reflexivity|].
        destruct (join_collapse (sp_path sp) quota ext ic ec Hnd Hwp Hfp Er (Hg1 ext Hin) Hic Hec)
          as (a & Hct & Hrt & Hwc & pz' & Hpz' & Hqz').
        split; [exists a; eapply closed_weaken; eauto|]. split; [auto|]. split; [rewrite Ecost; auto|].
        split; [lia|]. split; [right; split; eauto|]. exact Hnew.
      * eexists; split; [reflexivity|]. split; [auto|]. split; [auto|]. split; [now rewrite Hb|].
        split; [lia|]. split; [auto|]. exact Hnew.
    + eexists; split; [reflexivity|]. split; [auto|]. split; [auto|]. split; [auto|]. split; [auto|]. split; [auto|].
      intros i' w x' ext zw ze Hin Hqw Hrw. apply in_app_iff in Hin as [Hin|[<-|[]]]; [now apply (Hb6 i' w x' ext)|].
      exfalso. destruct (Huniq w x' Hqw) as [Ef Ew]. subst w. apply Hroot in Hrw. rewrite Hrw, Ef in Eand. discriminate.
  - rewrite E. cbn [bind]. destruct H as ((s' & Hct) & Hrb & Hwc & Hle & Hor & Hopt).
    destruct (reorder_closed g s' m best root Hct Hrb) as (H1 & _ & _ & H4 & H5 & _).
    exists (reorder_tour_from_root best root), z, cost. split; [reflexivity|]. split; [exact H1|].
    split; [auto|]. split; [apply H4; auto|]. split; [auto|]. split; [|split].
    + intros pz Hpz Hq. destruct Hor as [->|[(pz' & Hpz' & Hq') _]]; eauto.
    + intros pz Hpz Hq. destruct Hor as [->|[_ Hor]]; auto. specialize (Hor pz Hpz). lia.
    + intros i w x ext zw ze Hi. apply (Hopt i w x ext zw ze). apply in_rev. rewrite rev_involutive. apply in_seq. lia.
Qed.

(** ** the combined heuristic *)
Context (Hmax : (Z.of_nat (gn g) <= int_max)%Z).

Lemma HPb2 : (2 * (Z.of_nat (S (gn g)) * P) <= int_max)%Z.
Proof. assert (0 <= Z.of_nat (S (gn g)) * P)%Z by (apply Z.mul_nonneg_nonneg; lia). lia. Qed.

Lemma extends_closed m t t' : 1 <= m <= 2 -> closed_tour g root m t -> extends g p root t t' ->
  closed_tour g root m t' /\
  forall z, tour_prize p t z -> exists z', tour_prize p t' z' /\ (z <= z')%Z.
Proof.
  intros Hm Ht [->|[H1 H2]]; [split; [auto|]; intros z Hz; exists z; split; [auto|lia]|].
  split; [eapply closed_weaken; [|exact H1]; lia|].
  intros z Hz. destruct (H2 z Hz) as (z' & Hz' & Hlt). exists z'. split; [auto|lia].
Qed.

Lemma tour_prize_w m t : 1 <= m -> closed_tour g root m t ->
  exists z, total_prize_of_tour p t = Ok z /\ tour_prize p t z.
Proof.
  intros Hm Ht. destruct (closed_len g root m t Ht) as (k & Hl & Hk1 & Hkn & _ & _).
  destruct Hp as [Hpl Hpf]. pose proof Ht as (_ & _ & _ & _ & _ & Hf).
  apply (total_prize_of_tour_ok p P t); auto.
  - eapply Forall_impl; [|exact Hpf]. simpl. lia.
  - now rewrite Hpl.
  - intros ->. simpl in Hl. lia.
  - assert (Z.of_nat (length t) * P <= Z.of_nat (S (gn g)) * P)%Z by (apply Z.mul_le_mono_nonneg_r; lia).
    assert (0 <= Z.of_nat (S (gn g)) * P)%Z by (apply Z.mul_nonneg_nonneg; lia). lia.
Qed.

Lemma extend_until_ok m quota depth : 1 <= m <= 2 -> forall rem step t,
  (1 <= step)%Z -> (step + Z.of_nat rem <= int_max)%Z -> closed_tour g root m t ->
  exists t' b, extend_until_feasible rem step g t c p quota root depth = Ok (t', b) /\
    closed_tour g root m t' /\
    (b = true -> exists z, tour_prize p t' z /\ (quota <= z)%Z).
Proof.
  intros Hm. induction rem as [|rem IH]; intros step t Hs Hsr Ht; cbn [extend_until_feasible].
  - exists t, false. split; [auto|]. split; [auto|discriminate].
  - destruct (path_extension_until_ok g c p root C P Hg Hmax costs_sym Hp HC HP HCb HPb2 quota step depth t)
      as (t1 & E1 & Hx & _); [eapply closed_weaken; [|exact Ht]; lia|unfold int_min; lia|lia|].
    rewrite E1. cbn [bind].
    destruct (extends_closed m t t1 Hm Ht Hx) as [Ht1 _].
    destruct (tour_prize_w m t1 ltac:(lia) Ht1) as (z & Ez & Hz). rewrite Ez. cbn [bind].
    destruct (Z.leb_spec quota z) as [Hq|Hq].
    + exists t1, true. split; [auto|]. split; [auto|]. intros _. exists z. auto.
    + apply IH; auto; lia.
Qed.

Lemma reorder_root m t : closed_tour g root m t -> reorder_tour_from_root t root = t.
Proof. intros (vs & -> & _). apply reorder_first. Qed.

Lemma closed_root_in m t : closed_tour g root m t -> In root t.
Proof. intros (vs & -> & _). now left. Qed.

Lemma ping_pong_ok m quota depth shortest : 1 <= m <= 2 -> forall rem step t cost,
  (1 <= step)%Z -> (step + Z.of_nat rem <= int_max)%Z -> closed_tour g root m t ->
  walk_cost g c t cost -> (exists z, tour_prize p t z /\ (quota <= z)%Z) ->
  exists t' cost', ping_pong rem step tb g c p quota root shortest depth t t cost = Ok t' /\
    closed_tour g root m t' /\ walk_cost g c t' cost' /\ (cost' <= cost)%Z /\
    exists z, tour_prize p t' z /\ (quota <= z)%Z.
Proof.
  intros Hm. induction rem as [|rem IH]; intros step t cost Hs Hsr Ht Hcost Hz; cbn [ping_pong].
  - exists t, cost. split; [auto|]. split; [auto|]. split; [auto|]. split; [lia|auto].
  - destruct (path_extension_ok g c p root C P Hg Hmax costs_sym Hp HC HP HCb HPb2 step depth t)
      as (t1 & E1 & Hx); [eapply closed_weaken; [|exact Ht]; lia|unfold int_min; lia|lia|].
    rewrite E1. cbn [bind].
    destruct (extends_closed m t t1 Hm Ht Hx) as [Ht1 Hpz].
    destruct (collapse_ok t1 root m quota shortest Ht1 ltac:(lia) (closed_root_in _ _ Ht1))
      as (t2 & z1 & z2 & E2 & Ht2 & Hz1 & Hz2 & Hle & Hq & _).
    rewrite E2. cbn [bind].
    destruct (closed_len g root m t2 Ht2) as (k & Hl & _ & Hkn & _ & _).
    pose proof Ht2 as (_ & _ & _ & _ & Hw2 & Hf2).
    destruct (cost_w t2 Hf2 Hw2 ltac:(lia)) as (z2' & Ez2 & Hz2' & _).
    assert (z2' = z2) by (eapply walk_cost_fun; eauto). subst z2'. rewrite Ez2. cbn [bind].
    destruct (Z.ltb_spec z2 cost) as [Hlt|Hge].
    + rewrite (reorder_root m t2 Ht2).
      destruct Hz as (z & Hz & Hqz). destruct (Hpz z Hz) as (z' & Hz' & Hzz).
      destruct (IH (step + 1)%Z t2 z2) as (t' & cost' & E' & H1 & H2 & H3 & H4); auto; try lia.
      { apply (Hq z'); auto. lia. }
      exists t', cost'. split; [exact E'|]. split; [auto|]. split; [auto|]. split; [lia|auto].
    + destruct (IH (step + 1)%Z t cost) as (t' & cost' & E' & H1 & H2 & H3 & H4); auto; try lia.
      exists t', cost'. auto.
Qed.

Lemma combined_ok m quota depth shortest step_size t : 1 <= m <= 2 -> (step_size < int_max)%Z ->
  closed_tour g root m t ->
  exists t', path_extension_collapse tb g t c p quota root shortest depth step_size = Ok t' /\
    (t' = [] \/ closed_tour g root m t' /\ exists z, tour_prize p t' z /\ (quota <= z)%Z) /\
    (forall z, tour_prize p t z -> (quota <= z)%Z -> exists x y,
       t' <> [] /\ walk_cost g c t x /\ walk_cost g c t' y /\ (y <= x)%Z).
Proof.
  intros Hm Hs Ht. unfold path_extension_collapse.
  destruct (tour_prize_w m t ltac:(lia) Ht) as (z & Ez & Hz). rewrite Ez. cbn [bind].
  assert (Hstep : (1 + Z.of_nat (Z.to_nat step_size) <= int_max)%Z) by (unfold int_max in *; lia).
  assert (Hmain : forall t0, closed_tour g root m t0 -> (exists z, tour_prize p t0 z /\ (quota <= z)%Z) ->
    exists t' x y, (do best <- collapse tb g t0 c p quota root shortest;
        do best_cost <- total_cost g c best;
        do r <- ping_pong (Z.to_nat step_size) 1 tb g c p quota root shortest depth
           (reorder_tour_from_root best root) (reorder_tour_from_root best root) best_cost;
        Ok (reorder_tour_from_root r root)) = Ok t' /\
      closed_tour g root m t' /\ (exists z, tour_prize p t' z /\ (quota <= z)%Z) /\
      walk_cost g c t0 x /\ walk_cost g c t' y /\ (y <= x)%Z).
  { intros t0 Ht0 (z0 & Hz0 & Hq0).
    destruct (collapse_ok t0 root m quota shortest Ht0 ltac:(lia) (closed_root_in _ _ Ht0))
      as (t2 & z1 & z2 & E2 & Ht2 & Hz1 & Hz2 & Hle & Hq & _).
    rewrite E2. cbn [bind].
    destruct (closed_len g root m t2 Ht2) as (k & Hl & _ & Hkn & _ & _).
    pose proof Ht2 as (_ & _ & _ & _ & Hw2 & Hf2).
    destruct (cost_w t2 Hf2 Hw2 ltac:(lia)) as (z2' & Ez2 & Hz2' & _).
    assert (z2' = z2) by (eapply walk_cost_fun; eauto). subst z2'. rewrite Ez2. cbn [bind].
    rewrite (reorder_root m t2 Ht2).
    destruct (ping_pong_ok m quota depth shortest Hm (Z.to_nat step_size) 1%Z t2 z2) as (t' & cost' & E' & H1 & H2 & H3 & H4);
      auto; try lia.
    { apply (Hq z0); auto. }
    rewrite E'. cbn [bind]. rewrite (reorder_root m t' H1).
    exists t', z1, cost'. split; [auto|]. split; [auto|]. split; [auto|]. split; [auto|]. split; [auto|lia]. }
  destruct (Z.leb_spec quota z) as [Hq|Hq].
  - cbn [bind]. destruct (Hmain t Ht) as (t' & x & y & E & H1 & H2 & H3 & H4 & H5); [eauto|].
    exists t'. split; [exact E|]. split; [right; auto|]. intros z' _ _. exists x, y.
    split; [|auto]. destruct H1 as (vs & -> & _). discriminate.
  - destruct (extend_until_ok m quota depth Hm (Z.to_nat step_size) 1%Z t) as (t1 & b & E1 & Ht1 & Hb); auto; try lia.
    rewrite E1. cbn [bind].
    assert (Hno : forall z', tour_prize p t z' -> (quota <= z')%Z -> False).
    { intros z' Hz' Hq'. assert (z' = z) by (eapply prize_sum_fun; eauto). lia. }
    destruct b.
    + destruct (Hmain t1 Ht1 (Hb eq_refl)) as (t' & x & y & E & H1 & H2 & H3 & H4 & H5).
      exists t'. split; [exact E|]. split; [right; auto|]. intros z' Hz' Hq'. exfalso. eauto.
    + exists []. split; [auto|]. split; [auto|]. intros z' Hz' Hq'. exfalso. eauto.
Qed.
End Col.

Lemma any_cost_walk_cost g c w z : no_parallel g -> any_cost g c w z -> walk_cost g c w z.
Proof.
  intros Hn. induction 1 as [u|u v w e x z Hj Hx Hac IH]; [constructor|].
  econstructor; eauto. split; auto. intros f Hf. rewrite (Hn _ _ _ _ Hj Hf). auto.
Qed.

Lemma walk_cost_any_cost g c w z : w <> [] -> walk_cost g c w z -> any_cost g c w z.
Proof.
  intros Hne H. induction H as [|u|u v w e x z Hs Hx Hac IH]; [congruence|constructor|].
  econstructor; eauto; [apply Hs|]. apply IH. discriminate.
Qed.

Lemma dijkstra_simple tb g c s t mark C : good_pick tb -> graph_ok g -> no_parallel g ->
  costs_within g c 0 C -> (0 <= C)%Z -> (Z.of_nat (gn g) * C < int_max)%Z ->
  length mark = gn g -> s < gn g -> t < gn g ->
  exists found st, dijkstra_blacklist tb g c s t mark = Ok (found, st) /\
  if found : bool then
    exists path z, path_in_tree_from_parents (d_pred st) t = Ok path /\
      path_via (fun v => nth_error mark v = Some false) s t path /\ NoDup path /\ walk_cost g c path z /\
      nth_error (d_dist st) t = Some z /\
      forall w z', path_via (fun v => nth_error mark v = Some false) s t w -> walk_cost g c w z' -> (z <= z')%Z
  else forall w, is_walk g w -> ~ path_via (fun v => nth_error mark v = Some false) s t w.
Proof.
  intros Htb Hg Hn Hc HC Hmax Hm Hs Ht.
  destruct (dijkstra_spec tb Htb g c s t mark C Hg Hc HC Hmax Hm Hs Ht) as (found & st & E & H).
  exists found, st. split; [exact E|]. destruct found; [|exact H].
  destruct H as (path & z & H1 & H2 & H3 & H4 & H5 & H6 & H7). exists path, z.
  split; [auto|]. split; [auto|]. split; [auto|]. split; [now apply any_cost_walk_cost|]. split; [auto|].
  intros w z' Hw Hz'. apply (H7 w z' Hw). apply walk_cost_any_cost; auto.
  intros ->. destruct Hw as [Hh _]. discriminate.
Qed.

(** a tour of a single vertex is given up unless the quota is not positive *)
Lemma combined_single tb g c p root quota shortest depth step_size :
  (0 < quota)%Z ->
  path_extension_collapse tb g [root] c p quota root shortest depth step_size = Ok [].
Proof.
  intros Hq. unfold path_extension_collapse. cbn [total_prize_of_tour removelast total_prize foldM bind].
  destruct (Z.leb_spec quota 0) as [H|_]; [lia|].
  assert (Hloop : forall rem step, (1 <= step)%Z ->
    extend_until_feasible rem step g [root] c p quota root depth = Ok ([root], false)).
  { induction rem as [|rem IH]; intros step Hs; cbn [extend_until_feasible]; [reflexivity|].
    assert (Hst : path_extension_until g [root] c p root quota step depth = Ok [root]).
    { unfold path_extension_until. cbn [total_prize_of_tour removelast total_prize foldM bind].
      assert (El : step_lt_size step (length [root]) = false).
      { unfold step_lt_size. cbn [length]. destruct (Z.ltb_spec step 0); [lia|].
        change ((Z.of_nat 1 - 1) mod 2 ^ 64)%Z with 0%Z. apply Z.ltb_ge. lia. }
      destruct (num_vertices g); cbn [path_extension_until_loop]; rewrite El;
        destruct (0 <? quota)%Z; reflexivity. }
    rewrite Hst. cbn [bind total_prize_of_tour removelast total_prize foldM].
    destruct (Z.leb_spec quota 0) as [H|_]; [lia|]. apply IH. lia. }
  rewrite Hloop by lia. reflexivity.
Qed.

Lemma collapse_locally_optimal g c p root C P :
  graph_ok g -> costs_within g c 0 C -> prizes_within g p 0 P -> (0 <= C)%Z -> (0 <= P)%Z ->
  (2 * (Z.of_nat (S (gn g)) * C) <= int_max)%Z -> (3 * (Z.of_nat (S (gn g)) * P) <= int_max)%Z ->
  forall tb, good_pick tb -> forall t s quota shortest,
  tour_from g s t -> In root t ->
  forall i w x ext zw ze, i < length t -> quota_path p quota t i w x -> In root w ->
    vertex_collapse g p quota w ext -> walk_cost g c w zw -> walk_cost g c ext ze ->
  exists t' z', collapse tb g t c p quota root shortest = Ok t' /\ walk_cost g c t' z' /\
    (z' <= zw + ze)%Z.
Proof.
  intros Hg Hc Hp HC HP H1 H2 tb Htb t s quota shortest Ht Hr i w x ext zw ze Hi Hq Hw Hv Hzw Hze.
  destruct (collapse_ok g c p root C P Hg Hc Hp HC HP H1 H2 tb Htb t s 2 quota shortest Ht (le_n 2) Hr)
    as (t' & z & z' & E & _ & _ & Hz' & _ & _ & _ & Hopt).
  exists t', z'. split; [exact E|]. split; [exact Hz'|]. eapply Hopt; eauto.
Qed.
