(** * P_Lifetime: lemmas on reference counts and lifetimes *)
From Verif Require Import Base Graph Spec P_Base M_Walk M_Graph M_Solution M_ILP M_CostCover M_Solve M_Lifetime Spec_Lifetime.
Open Scope nat_scope.

(** ** counts *)
Definition cnt (n : nat) (f : nat -> nat) (cs : list nat) : Prop :=
  length cs = n /\ forall v, v < n -> nth_error cs v = Some (f v).

Lemma cnt_ext n f h cs : (forall v, v < n -> f v = h v) -> cnt n f cs -> cnt n h cs.
Proof. intros E [H1 H2]. split; auto. intros v Hv. rewrite <- E; auto. Qed.

Definition occ (l : list nat) (v : nat) : nat := count_occ Nat.eq_dec l v.

Lemma occ_cons x l v : occ (x :: l) v = (if Nat.eqb v x then 1 else 0) + occ l v.
Proof.
  unfold occ. cbn [count_occ]. destruct (Nat.eq_dec x v) as [->|H]; [now rewrite Nat.eqb_refl|].
  destruct (Nat.eqb_spec v x); [congruence|reflexivity].
Qed.

Lemma occ_app a b v : occ (a ++ b) v = occ a v + occ b v.
Proof. apply count_occ_app. Qed.

Lemma capture_cnt n f cs v : cnt n f cs -> v < n -> 0 < f v ->
  exists cs', capture cs v = Ok cs' /\ cnt n (fun x => f x + (if Nat.eqb x v then 1 else 0)) cs'.
Proof.
  intros [H1 H2] Hv Hf. unfold capture, vget. rewrite H2 by auto. cbn [bind].
  destruct (Nat.eqb_spec (f v) 0); [lia|]. rewrite vset_ok by lia. eexists. split; [reflexivity|].
  split; [now rewrite upd_length|]. intros x Hx. rewrite upd_nth by lia.
  destruct (Nat.eqb_spec v x) as [->|Hn].
  - rewrite Nat.eqb_refl. f_equal; lia.
  - destruct (Nat.eqb_spec x v); [congruence|]. rewrite H2 by auto. f_equal; lia.
Qed.

Lemma release_cnt n f cs v : cnt n f cs -> v < n -> 0 < f v ->
  exists cs', release cs v = Ok cs' /\ cnt n (fun x => f x - (if Nat.eqb x v then 1 else 0)) cs'.
Proof.
  intros [H1 H2] Hv Hf. unfold release, vget. rewrite H2 by auto. cbn [bind].
  destruct (Nat.eqb_spec (f v) 0); [lia|]. rewrite vset_ok by lia. eexists. split; [reflexivity|].
  split; [now rewrite upd_length|]. intros x Hx. rewrite upd_nth by lia.
  destruct (Nat.eqb_spec v x) as [->|Hn].
  - now rewrite Nat.eqb_refl.
  - destruct (Nat.eqb_spec x v); [congruence|]. rewrite H2 by auto. f_equal; lia.
Qed.

Lemma capture_all n vs : forall f cs, cnt n f cs -> Forall (fun v => v < n) vs -> (forall v, v < n -> 0 < f v) ->
  exists cs', foldM capture vs cs = Ok cs' /\ cnt n (fun x => f x + occ vs x) cs'.
Proof.
  induction vs as [|v vs IH]; intros f cs Hc HF Hp.
  - exists cs. split; [reflexivity|]. eapply cnt_ext; [|exact Hc]. intros. simpl. lia.
  - inversion HF as [|? ? Hv HF']; subst. cbn [foldM].
    destruct (capture_cnt n f cs v Hc Hv (Hp v Hv)) as (cs1 & E & H1). rewrite E. cbn [bind].
    destruct (IH _ cs1 H1 HF') as (cs' & E' & H').
    { intros x Hx. pose proof (Hp x Hx). lia. }
    exists cs'. split; auto. eapply cnt_ext; [|exact H']. intros x Hx. rewrite occ_cons. simpl. lia.
Qed.

Lemma release_all n vs : forall f cs, cnt n f cs -> Forall (fun v => v < n) vs -> (forall v, v < n -> occ vs v <= f v) ->
  exists cs', foldM release vs cs = Ok cs' /\ cnt n (fun x => f x - occ vs x) cs'.
Proof.
  induction vs as [|v vs IH]; intros f cs Hc HF Hp.
  - exists cs. split; [reflexivity|]. eapply cnt_ext; [|exact Hc]. intros. simpl. lia.
  - inversion HF as [|? ? Hv HF']; subst. cbn [foldM].
    destruct (release_cnt n f cs v Hc Hv) as (cs1 & E & H1).
    { specialize (Hp v Hv). rewrite occ_cons, Nat.eqb_refl in Hp. lia. }
    rewrite E. cbn [bind].
    destruct (IH _ cs1 H1 HF') as (cs' & E' & H').
    { intros x Hx. specialize (Hp x Hx). rewrite occ_cons in Hp. cbn beta. lia. }
    exists cs'. split; auto. eapply cnt_ext; [|exact H']. intros x Hx. rewrite occ_cons. simpl. lia.
Qed.

(** ** worlds: [kss] are the variable lists of the constraints, each with one reference *)
Definition wok (n : nat) (f : nat -> nat) (kss : list (list nat)) (w : world) : Prop :=
  cnt n f (w_vars w) /\ w_conss w = map (fun vs => (1, vs)) kss /\
  w_pvars w = seq 0 n /\ w_pconss w = seq 0 (length kss).

Lemma wok_ext n f h kss w : (forall v, v < n -> f v = h v) -> wok n f kss w -> wok n h kss w.
Proof. intros E (H & R). split; auto. eapply cnt_ext; eauto. Qed.

Lemma nth_error_mid {A} (a : list A) x b : nth_error (a ++ x :: b) (length a) = Some x.
Proof. rewrite nth_error_app2 by lia. now rewrite Nat.sub_diag. Qed.

Lemma upd_mid {A} (a : list A) x b y : upd (a ++ x :: b) (length a) y = a ++ y :: b.
Proof. induction a as [|z a IH]; simpl; auto. now rewrite IH. Qed.

Lemma vset_mid {A} (a : list A) x b y : vset (a ++ x :: b) (length a) y = Ok (a ++ y :: b).
Proof. rewrite vset_ok, upd_mid; auto. rewrite app_length. simpl. lia. Qed.

Lemma new_var_ok n f w : wok n f [] w -> (forall v, v < n -> f v = 2) ->
  exists w', new_var w = Ok w' /\ wok (S n) (fun _ => 2) [] w'.
Proof.
  intros ((H1 & H2) & H3 & H4 & H5) Hf. unfold new_var. rewrite H1.
  destruct (capture_cnt (S n) (fun v => if v <? n then 2 else 1) (w_vars w ++ [1]) n) as (cs & E & Hc).
  - split; [rewrite app_length; simpl; lia|]. intros v Hv. destruct (Nat.ltb_spec v n).
    + rewrite nth_error_app1 by lia. rewrite H2, Hf; auto.
    + assert (v = n) as -> by lia. rewrite nth_error_app2 by lia. rewrite H1, Nat.sub_diag. reflexivity.
  - lia.
  - rewrite Nat.ltb_irrefl. lia.
  - rewrite E. cbn [bind]. eexists. split; [reflexivity|]. split; [|split; [|split]]; cbn [w_vars w_conss w_pvars w_pconss]; auto.
    + eapply cnt_ext; [|exact Hc]. intros v Hv. cbn beta. destruct (Nat.ltb_spec v n), (Nat.eqb_spec v n); lia.
    + rewrite H4, seq_S. reflexivity.
Qed.

Lemma edge_variables_lt n : exists w, lt_edge_variables n empty_world = Ok w /\ wok n (fun _ => 2) [] w.
Proof.
  unfold lt_edge_variables.
  destruct (foldM_inv (fun w (_ : nat) => new_var w) (fun done w => wok (length done) (fun _ => 2) [] w) (seq 0 n) empty_world)
    as (w & E & H).
  - repeat split; auto. intros v Hv. simpl in Hv. lia.
  - intros done x rest w _ Hw. destruct (new_var_ok _ _ _ Hw) as (w' & E & Hw'); auto.
    exists w'. split; auto. rewrite app_length, Nat.add_1_r. exact Hw'.
  - rewrite seq_length in H. eauto.
Qed.

Lemma held_lt n ts : Forall (fun t : nat * Z => fst t < n) ts -> Forall (fun v => v < n) (held_vars ts).
Proof.
  intros H. unfold held_vars. apply Forall_forall. intros v Hv. apply in_map_iff in Hv as (t & <- & Ht).
  apply filter_In in Ht as [Ht _]. rewrite Forall_forall in H. now apply H.
Qed.

Lemma linear_lt n f kss w ts : wok n f kss w -> Forall (fun t : nat * Z => fst t < n) ts -> (forall v, v < n -> 0 < f v) ->
  exists w', lt_linear w ts = Ok w' /\ wok n (fun v => f v + occ (held_vars ts) v) (kss ++ [held_vars ts]) w'.
Proof.
  intros (Hc & Hk & Hp & Hq) HF Hpos. unfold lt_linear, create_cons.
  destruct (capture_all n (held_vars ts) f (w_vars w) Hc (held_lt n ts HF) Hpos) as (cs & E & Hcs).
  rewrite E. cbn [bind]. rewrite Hk, map_length. set (K := map _ kss).
  assert (HK : length kss = length K) by (unfold K; now rewrite map_length).
  unfold add_cons. cbn [w_conss w_vars w_pvars w_pconss]. unfold vget. rewrite HK, nth_error_mid. cbn [bind Nat.eqb].
  rewrite vset_mid. cbn [bind].
  unfold release_cons. cbn [w_conss w_vars w_pvars w_pconss]. unfold vget. rewrite nth_error_mid. cbn [bind Nat.eqb].
  rewrite vset_mid. cbn [bind]. eexists. split; [reflexivity|].
  split; [exact Hcs|]. cbn [w_conss w_vars w_pvars w_pconss]. split; [|split].
  - rewrite map_app. reflexivity.
  - exact Hp.
  - rewrite Hq, app_length. cbn [length]. rewrite Nat.add_1_r, seq_S, HK. reflexivity.
Qed.

Definition sumocc (kss : list (list nat)) (v : nat) : nat := occ (concat kss) v.

Lemma linears_lt n tss : forall f kss w, wok n f kss w -> Forall (Forall (fun t : nat * Z => fst t < n)) tss ->
  (forall v, v < n -> 0 < f v) ->
  exists w', foldM lt_linear tss w = Ok w' /\
    wok n (fun v => f v + sumocc (map held_vars tss) v) (kss ++ map held_vars tss) w'.
Proof.
  induction tss as [|ts tss IH]; intros f kss w Hw HF Hp.
  - exists w. split; [reflexivity|]. cbn [map]. rewrite app_nil_r. eapply wok_ext; [|exact Hw]. intros. unfold sumocc. simpl. lia.
  - inversion HF as [|? ? H1 H2]; subst. cbn [foldM].
    destruct (linear_lt n f kss w ts Hw H1 Hp) as (w1 & E & Hw1). rewrite E. cbn [bind].
    destruct (IH _ _ _ Hw1 H2) as (w' & E' & Hw').
    { intros v Hv. specialize (Hp v Hv). lia. }
    exists w'. split; auto. cbn [map]. rewrite <- app_assoc in Hw'. eapply wok_ext; [|exact Hw'].
    intros v Hv. unfold sumocc. cbn [concat]. rewrite occ_app. lia.
Qed.

Lemma prize_loop n K k kss pv pq : k = length K -> forall ts f cs vs, cnt n f cs -> NoDup (map fst ts) ->
  Forall (fun t : nat * Z => fst t < n) ts -> (forall v, In v (map fst ts) -> 0 < f v) ->
  kss = K ++ [(1, vs)] ->
  exists cs', foldM (fun w t => do w <- add_coef k t w; release_var (fst t) w) ts (mkWorld cs kss pv pq)
    = Ok (mkWorld cs' (K ++ [(1, vs ++ held_vars ts)]) pv pq) /\
    cnt n (fun v => f v + occ (held_vars ts) v - occ (map fst ts) v) cs'.
Proof.
  intros ->. intros ts. revert kss. induction ts as [|[v x] ts IH]; intros kss f cs vs Hc Hnd HF Hp ->.
  - exists cs. split; [cbn [foldM held_vars filter map]; now rewrite app_nil_r|].
    eapply cnt_ext; [|exact Hc]. intros u Hu. simpl. lia.
  - cbn [map fst] in Hnd, Hp. inversion Hnd as [|? ? Hni Hnd']; subst. inversion HF as [|? ? Hv HF']; subst. cbn [fst] in Hv.
    assert (Hfv : 0 < f v) by (apply Hp; simpl; auto).
    cbn [foldM]. unfold add_coef. cbn [fst snd].
    assert (Z0 : occ (map fst ts) v = 0) by (apply count_occ_not_In; exact Hni).
    assert (Z1 : occ (held_vars ts) v = 0).
    { apply count_occ_not_In. intros H. apply Hni. unfold held_vars in H. apply in_map_iff in H as (t & <- & Ht).
      apply filter_In in Ht as [Ht _]. apply in_map_iff. eauto. }
    destruct (Z.eqb_spec x 0) as [->|Hx].
    + cbn [bind]. unfold release_var. cbn [w_vars w_conss w_pvars w_pconss].
      destruct (release_cnt n f cs v Hc Hv Hfv) as (cs1 & E1 & H1). rewrite E1. cbn [bind].
      destruct (IH (K ++ [(1, vs)]) _ cs1 vs H1 Hnd' HF') as (cs' & E' & H'); auto.
      { intros u Hu. assert (u <> v) by congruence. destruct (Nat.eqb_spec u v); [congruence|]. rewrite Nat.sub_0_r. apply Hp. simpl; auto. }
      exists cs'. split; [exact E'|]. eapply cnt_ext; [|exact H']. intros u Hu. cbn [map fst]. rewrite occ_cons.
      unfold held_vars at 2. cbn [filter snd Z.eqb negb]. fold (held_vars ts).
      destruct (Nat.eqb_spec u v) as [->|]; lia.
    + unfold vget. cbn [w_conss]. rewrite nth_error_mid. cbn [bind Nat.eqb w_vars w_pvars w_pconss].
      destruct (capture_cnt n f cs v Hc Hv Hfv) as (cs0 & E0 & H0). rewrite E0. cbn [bind].
      rewrite vset_mid. cbn [bind]. unfold release_var. cbn [w_vars w_conss w_pvars w_pconss].
      destruct (release_cnt n _ cs0 v H0 Hv) as (cs1 & E1 & H1).
      { cbn beta. lia. }
      rewrite E1. cbn [bind].
      destruct (IH (K ++ [(1, vs ++ [v])]) _ cs1 (vs ++ [v]) H1 Hnd' HF') as (cs' & E' & H'); auto.
      { intros u Hu. assert (0 < f u) by (apply Hp; simpl; auto). assert (u <> v) by congruence. destruct (Nat.eqb_spec u v); [congruence|]. lia. }
      assert (Hh : held_vars ((v, x) :: ts) = v :: held_vars ts).
      { unfold held_vars. cbn [filter snd]. destruct (Z.eqb_spec x 0); [contradiction|]. reflexivity. }
      exists cs'. split.
      * rewrite Hh. rewrite <- app_assoc in E'. exact E'.
      * eapply cnt_ext; [|exact H']. intros u Hu. cbn [map fst]. rewrite Hh, !occ_cons.
        destruct (Nat.eqb_spec u v) as [->|]; lia.
Qed.

(** The prize constraint releases every variable it is given once. *)
Lemma prize_lt n f kss w ts : wok n f kss w -> NoDup (map fst ts) -> Forall (fun t : nat * Z => fst t < n) ts ->
  (forall v, In v (map fst ts) -> 0 < f v) ->
  exists w', lt_prize w ts = Ok w' /\
    wok n (fun v => f v + occ (held_vars ts) v - occ (map fst ts) v) (kss ++ [held_vars ts]) w'.
Proof.
  intros (Hc & Hk & Hp & Hq) Hnd HF Hpos. unfold lt_prize, create_cons.
  cbn [held_vars filter map foldM bind]. rewrite Hk, map_length. set (K := map _ kss).
  assert (HK : length kss = length K) by (unfold K; now rewrite map_length).
  destruct (prize_loop n K (length kss) (K ++ [(1, [])]) (w_pvars w) (w_pconss w) HK ts f (w_vars w) [] Hc Hnd HF Hpos eq_refl)
    as (cs & E & Hcs).
  change (held_vars []) with (@nil nat). rewrite E. cbn [bind app]. rewrite HK.
  unfold add_cons. cbn [w_conss w_vars w_pvars w_pconss]. unfold vget. rewrite nth_error_mid. cbn [bind Nat.eqb].
  rewrite vset_mid. cbn [bind].
  unfold release_cons. cbn [w_conss w_vars w_pvars w_pconss]. unfold vget. rewrite nth_error_mid. cbn [bind Nat.eqb].
  rewrite vset_mid. cbn [bind]. eexists. split; [reflexivity|].
  split; [exact Hcs|]. cbn [w_conss w_vars w_pvars w_pconss]. split; [|split].
  - rewrite map_app. reflexivity.
  - exact Hp.
  - rewrite Hq, app_length. cbn [length]. rewrite Nat.add_1_r, seq_S, HK. reflexivity.
Qed.

(** ** freeing *)
Lemma free_conss n pv pq : forall kss done f cs, cnt n f cs -> Forall (Forall (fun v => v < n)) kss ->
  (forall v, v < n -> sumocc kss v <= f v) ->
  exists cs', foldM (fun w k => release_cons k w) (seq (length done) (length kss))
      (mkWorld cs (done ++ map (fun vs => (1, vs)) kss) pv pq)
    = Ok (mkWorld cs' (done ++ map (fun _ => (0, [])) kss) pv pq) /\
    cnt n (fun v => f v - sumocc kss v) cs'.
Proof.
  induction kss as [|vs kss IH]; intros done f cs Hc HF Hs.
  - exists cs. split; [reflexivity|]. eapply cnt_ext; [|exact Hc]. intros. unfold sumocc. simpl. lia.
  - inversion HF as [|? ? H1 H2]; subst. cbn [length seq foldM map]. unfold release_cons at 1.
    cbn [w_conss w_vars w_pvars w_pconss]. unfold vget. rewrite nth_error_mid. cbn [bind Nat.eqb].
    assert (Hs' : forall v, v < n -> occ vs v + sumocc kss v <= f v).
    { intros v Hv. specialize (Hs v Hv). unfold sumocc in *. cbn [concat] in Hs. rewrite occ_app in Hs. lia. }
    destruct (release_all n vs f cs Hc H1) as (cs1 & E1 & Hc1).
    { intros v Hv. specialize (Hs' v Hv). lia. }
    rewrite E1. cbn [bind]. rewrite vset_mid. cbn [bind].
    destruct (IH (done ++ [(0, [])]) _ cs1 Hc1 H2) as (cs' & E' & Hc').
    { intros v Hv. specialize (Hs' v Hv). lia. }
    rewrite app_length, Nat.add_1_r, <- !app_assoc in E'. cbn [app] in E'. exists cs'. split; [exact E'|].
    eapply cnt_ext; [|exact Hc']. intros v Hv. unfold sumocc. cbn [concat]. rewrite occ_app. lia.
Qed.

Lemma free_vars ks pv pq vs : forall cs cs', foldM release vs cs = Ok cs' ->
  foldM (fun w v => release_var v w) vs (mkWorld cs ks pv pq) = Ok (mkWorld cs' ks pv pq).
Proof.
  induction vs as [|v vs IH]; intros cs cs' H; cbn [foldM] in *; [congruence|].
  apply bind_ok in H as (cs1 & E & H). unfold release_var at 1. cbn [w_vars w_conss w_pvars w_pconss].
  rewrite E. cbn [bind]. now apply IH.
Qed.

Lemma occ_seq n v : v < n -> occ (seq 0 n) v = 1.
Proof. intros H. apply NoDup_count_occ'; [apply seq_NoDup|]. apply in_seq. lia. Qed.

Lemma seq_lt n : Forall (fun v => v < n) (seq 0 n).
Proof. apply Forall_forall. intros v H. apply in_seq in H. lia. Qed.

(** [extra v] references of variable [v] are in other hands. *)
Lemma free_lt n extra kss w : Forall (Forall (fun v => v < n)) kss ->
  wok n (fun v => extra v + 1 + sumocc kss v) kss w ->
  exists w', free_prob w = Ok w' /\ cnt n extra (w_vars w') /\ w_conss w' = map (fun _ => (0, [])) kss.
Proof.
  intros HF (Hc & Hk & Hp & Hq). destruct w as [cs ks pv pq]. cbn [w_vars w_conss w_pvars w_pconss] in *. subst ks pv pq.
  unfold free_prob. cbn [w_pconss].
  destruct (free_conss n (seq 0 n) (seq 0 (length kss)) kss [] _ cs Hc HF) as (cs1 & E1 & H1).
  { intros v Hv. lia. }
  cbn [length app] in E1. rewrite E1. cbn [bind w_pvars].
  destruct (release_all n (seq 0 n) _ cs1 H1 (seq_lt n)) as (cs2 & E2 & H2).
  { intros v Hv. rewrite occ_seq by auto. lia. }
  rewrite (free_vars _ _ _ _ _ _ E2). cbn [bind]. eexists. split; [reflexivity|]. split; [|reflexivity].
  cbn [w_vars]. eapply cnt_ext; [|exact H2]. intros v Hv. cbn beta. rewrite occ_seq by auto. lia.
Qed.

(** ** the rows of the model use only edge variables *)
Definition row_lt (n : nat) (r : lin) : Prop := Forall (fun t => fst t < n) (l_terms r).

Lemma edge_lt g u v e : edge g u v = Ok (Some e) -> e < length (ge g).
Proof. intros H. apply edge_Some in H as [H _]. eapply joins_lt; eauto. Qed.

Lemma degree_row_lt g v r : degree_constraint g v = Ok r -> row_lt (length (ge g)) r.
Proof.
  unfold degree_constraint. intros H. apply bind_ok in H as (oe & E & H). destruct oe as [l|]; [|discriminate].
  apply bind_ok in H as (ns & En & H). apply bind_ok in H as (ts & Et & H).
  destruct (_ <? _); [discriminate|]. inversion H; subst. unfold row_lt. cbn [l_terms].
  assert (H0 : Forall (fun t : nat * Z => fst t < length (ge g)) [(l, (-2)%Z)]).
  { constructor; [|constructor]. eapply edge_lt; eauto. }
  clear H En. revert ts Et. generalize (length ns - 1) as nn. intros nn. revert H0. generalize [(l, (-2)%Z)].
  induction ns as [|u ns IH]; intros ts0 H0 ts Et; cbn [foldM] in Et; [congruence|].
  apply bind_ok in Et as (ts1 & E1 & Et). refine (IH ts1 _ ts Et).
  apply bind_ok in E1 as (of & Ef & E1). destruct of as [f|]; [|discriminate].
  destruct (Nat.eqb f l); [congruence|]. destruct (_ <? _); [|discriminate]. inversion E1; subst.
  apply Forall_app. split; auto. constructor; [|constructor]. eapply edge_lt; eauto.
Qed.

Lemma prize_row_fst g w q r : prize_constraint g w q = Ok r -> map fst (l_terms r) = seq 0 (length (ge g)).
Proof.
  unfold prize_constraint. intros H. apply bind_ok in H as (q' & _ & H). apply bind_ok in H as (ts & E & H).
  inversion H; subst. cbn [l_terms]. apply mapM_inv in E. clear H. induction E as [|e t es ts He _ IH]; [reflexivity|].
  cbn [map]. rewrite IH. f_equal. apply bind_ok in He as (o & _ & He). apply bind_ok in He as (x & _ & He). now inversion He.
Qed.

Lemma without_secs_rows g c w q root obj rows : model_without_secs g c w q root = Ok (obj, rows) ->
  exists pc rest, rows = pc :: rest /\ map fst (l_terms pc) = seq 0 (length (ge g)) /\ Forall (row_lt (length (ge g))) rest.
Proof.
  unfold model_without_secs. intros H. apply bind_ok in H as (ob & _ & H). apply bind_ok in H as (pc & Ep & H).
  apply bind_ok in H as (oe & Ee & H). destruct oe as [l|]; [|discriminate].
  apply bind_ok in H as (ds & Ed & H). inversion H; subst. exists pc, (root_constraint l :: ds). split; auto.
  split; [eapply prize_row_fst; eauto|]. constructor.
  - constructor; [|constructor]. eapply edge_lt; eauto.
  - apply mapM_inv in Ed. clear H. induction Ed as [|v r vs rs Hr _ IH]; constructor; auto. eapply degree_row_lt; eauto.
Qed.

Lemma model_rows g heur c p q root m : model_pctsp g heur c p q root = Ok m ->
  exists pc rest, i_cons m = pc :: rest /\ map fst (l_terms pc) = seq 0 (length (ge (i_graph m))) /\
    Forall (row_lt (length (ge (i_graph m)))) rest.
Proof.
  unfold model_pctsp. intros H. apply bind_ok in H as (b & _ & H). apply bind_ok in H as ([g' c'] & _ & H).
  apply bind_ok in H as (w & _ & H). apply bind_ok in H as ([obj rows] & E & H).
  destruct (without_secs_rows _ _ _ _ _ _ _ E) as (pc & rest & -> & H1 & H2).
  destruct heur as [|e heur]; [|apply bind_ok in H as (h & _ & H)]; inversion H; subst; cbn [i_cons i_graph]; eauto.
Qed.

(** ** the cost cover rows *)
Lemma edge_vars_lt g es vs : get_edge_variables (var_map g) es = Ok vs -> Forall (fun v => v < length (ge g)) vs.
Proof.
  intros H. apply mapM_inv in H. induction H as [|e v es vs Hv _ IH]; constructor; auto.
  unfold var_map in Hv. destruct (Nat.ltb_spec e (length (ge g))); inversion Hv; subst; auto.
Qed.

Lemma cover_row_lt g vs r : cover_inequality_from_vertices g (var_map g) vs = Ok r -> row_lt (length (ge g)) r.
Proof.
  unfold cover_inequality_from_vertices. intros H. apply bind_ok in H as (ls & _ & H). apply bind_ok in H as (xs & E & H).
  inversion H; subst. unfold row_lt, cover_inequality. cbn [l_terms]. apply edge_vars_lt in E.
  apply Forall_map. exact E.
Qed.

Lemma separate_rows_lt g root dist ub rows k : separate_then_add g (var_map g) root dist ub = Ok (rows, k) ->
  Forall (row_lt (length (ge g))) rows.
Proof.
  unfold separate_then_add. intros H. apply bind_ok in H as (vs & _ & H).
  assert (G : forall vs st st', Forall (row_lt (length (ge g))) (fst st) ->
    foldM (fun st v => do row <- cover_inequality_from_vertices g (var_map g) [root; v];
           Ok (fst st ++ [row], umod (snd st + 1))) vs st = Ok st' -> Forall (row_lt (length (ge g))) (fst st')).
  { clear. induction vs as [|v vs IH]; intros st st' H0 H; cbn [foldM] in H; [congruence|].
    apply bind_ok in H as (st1 & E & H). refine (IH st1 st' _ H). apply bind_ok in E as (row & Er & E).
    inversion E; subst. cbn [fst]. apply Forall_app. split; auto. constructor; auto. eapply cover_row_lt; eauto. }
  exact (G vs ([], 0%Z) (rows, k) (Forall_nil _) H).
Qed.

Lemma init_rows_lt g c root heur dist h : init_cost_cover g c (var_map g) root heur dist = Ok h ->
  Forall (row_lt (length (ge g))) (ch_rows h).
Proof.
  unfold init_cost_cover. intros H. apply bind_ok in H as (ub & _ & H). destruct (0 <? ub)%Z.
  - apply bind_ok in H as ([rows k] & E & H). inversion H; subst. cbn [ch_rows fst]. eapply separate_rows_lt; eauto.
  - inversion H. constructor.
Qed.

Lemma setup_rows_lt tb fl m heur root dist st : solve_setup tb fl m heur root dist = Ok st ->
  Forall (row_lt (length (ge (i_graph m)))) (opt_rows (b_dp st) ++ opt_rows (b_sp st)).
Proof.
  unfold solve_setup. intros H. apply bind_ok in H as (z & _ & H). apply bind_ok in H as (dp & Ed & H).
  apply bind_ok in H as (sp & Es & H). inversion H; subst. cbn [b_dp b_sp]. apply Forall_app. split.
  - destruct (fl_disjoint_paths fl); [|inversion Ed; constructor]. apply bind_ok in Ed as (h & E & Ed). inversion Ed; subst.
    cbn [opt_rows]. eapply init_rows_lt; eauto.
  - destruct (fl_shortest_path fl); [|inversion Es; constructor]. apply bind_ok in Es as (ds & _ & Es).
    apply bind_ok in Es as (h & E & Es). inversion Es; subst. cbn [opt_rows]. eapply init_rows_lt; eauto.
Qed.

(** ** the whole *)
Lemma held_app a b : held_vars (a ++ b) = held_vars a ++ held_vars b.
Proof. unfold held_vars. now rewrite filter_app, map_app. Qed.

Lemma holders_occ rows v : holders rows v = sumocc (map held_vars (map l_terms rows)) v.
Proof.
  unfold holders, sumocc.
  assert (E : concat (map held_vars (map l_terms rows)) = held_vars (flat_map l_terms rows)).
  { induction rows as [|r rows IH]; [reflexivity|]. cbn [map concat flat_map]. now rewrite IH, held_app. }
  rewrite E. generalize (flat_map l_terms rows). clear. induction l as [|[u x] l IH]; [reflexivity|].
  unfold held_vars. cbn [filter fst snd]. destruct (Z.eqb_spec x 0) as [->|Hx]; cbn [negb].
  - rewrite Bool.andb_false_r. exact IH.
  - rewrite Bool.andb_true_r. cbn [map fst]. rewrite occ_cons. fold (held_vars l).
    destruct (Nat.eqb_spec u v) as [->|].
    + rewrite Nat.eqb_refl. cbn [length]. now rewrite IH.
    + destruct (Nat.eqb_spec v u); [congruence|]. exact IH.
Qed.

Lemma lt_solve_wok fl m st n pc rest : n = length (ge (i_graph m)) -> i_cons m = pc :: rest ->
  map fst (l_terms pc) = seq 0 n -> Forall (row_lt n) rest ->
  Forall (row_lt n) (opt_rows (b_dp st) ++ opt_rows (b_sp st)) ->
  let cov := opt_rows (b_dp st) ++ opt_rows (b_sp st) in
  let kss := map held_vars (map l_terms (i_cons m)) ++ [[]] ++ map held_vars (map l_terms cov)
             ++ (if fl_cycle_cover fl then [[]] else []) in
  exists w, lt_solve fl m st = Ok w /\ wok n (fun v => 0 + 1 + sumocc kss v) kss w /\
    Forall (Forall (fun v => v < n)) kss /\
    (forall v, sumocc kss v = holders (i_cons m ++ cov) v).
Proof.
  intros En Ec Hfst Hrest Hcov cov kss.
  assert (Hpc : row_lt n pc).
  { unfold row_lt. apply (proj1 (Forall_map fst (fun v => v < n) (l_terms pc))). rewrite Hfst. apply seq_lt. }
  assert (Hlt : forall rows, Forall (row_lt n) rows -> Forall (Forall (fun t : nat * Z => fst t < n)) (map l_terms rows)).
  { intros rows HF. apply Forall_map. exact HF. }
  assert (Hhl : forall rows, Forall (row_lt n) rows -> Forall (Forall (fun v => v < n)) (map held_vars (map l_terms rows))).
  { intros rows HF. apply Forall_map. apply Forall_map. apply (Forall_impl _ (fun r Hr => held_lt n (l_terms r) Hr) HF). }
  assert (Hocc : forall v, sumocc kss v = holders (i_cons m ++ cov) v).
  { intros v. rewrite holders_occ, !map_app. unfold kss, sumocc. rewrite !concat_app, !occ_app.
    destruct (fl_cycle_cover fl); cbn [concat app]; simpl (occ [] v); lia. }
  assert (Hk : Forall (Forall (fun v => v < n)) kss).
  { unfold kss. apply Forall_app. split; [rewrite Ec; apply Hhl; now constructor|]. apply Forall_app. split; [repeat constructor|].
    apply Forall_app. split; [now apply Hhl|]. destruct (fl_cycle_cover fl); repeat constructor. }
  unfold lt_solve, lt_model, lt_without_secs. rewrite <- En, Ec.
  destruct (edge_variables_lt n) as (w0 & E0 & H0). rewrite E0. cbn [bind].
  destruct (prize_lt n _ [] w0 (l_terms pc) H0) as (w1 & E1 & H1).
  { rewrite Hfst. apply seq_NoDup. }
  { exact Hpc. }
  { intros. lia. }
  rewrite E1. cbn [bind]. cbn [app] in H1.
  assert (H1' : wok n (fun v => 1 + occ (held_vars (l_terms pc)) v) [held_vars (l_terms pc)] w1).
  { eapply wok_ext; [|exact H1]. intros v Hv. cbn beta. rewrite Hfst, occ_seq by auto. lia. }
  destruct (linears_lt n (map l_terms rest) _ _ w1 H1' (Hlt _ Hrest)) as (w2 & E2 & H2).
  { intros. lia. }
  rewrite E2. cbn [bind].
  destruct (linear_lt n _ _ w2 [] H2 (Forall_nil _)) as (w3 & E3 & H3).
  { intros. lia. }
  rewrite E3. cbn [bind].
  destruct (linears_lt n (map l_terms cov) _ _ w3 H3 (Hlt _ Hcov)) as (w4 & E4 & H4).
  { intros. lia. }
  fold cov. rewrite E4. cbn [bind].
  change (held_vars []) with (@nil nat) in H4.
  assert (Hkss : ((([held_vars (l_terms pc)] ++ map held_vars (map l_terms rest)) ++ [[]]) ++ map held_vars (map l_terms cov))
    ++ (if fl_cycle_cover fl then [[]] else []) = kss).
  { unfold kss. rewrite Ec. cbn [map]. rewrite <- !app_assoc. reflexivity. }
  assert (Hsum : forall v, 1 + occ (held_vars (l_terms pc)) v + sumocc (map held_vars (map l_terms rest)) v + occ [] v
     + sumocc (map held_vars (map l_terms cov)) v = 0 + 1 + sumocc kss v).
  { intros v. rewrite <- Hkss. unfold sumocc. rewrite !concat_app, !occ_app. cbn [concat]. rewrite !app_nil_r.
    destruct (fl_cycle_cover fl); simpl (occ _ v); cbn; lia. }
  destruct (fl_cycle_cover fl) eqn:Ef.
  - destruct (linear_lt n _ _ w4 [] H4 (Forall_nil _)) as (w5 & E5 & H5).
    { intros. lia. }
    exists w5. split; auto. split; [|split; [exact Hk|rewrite <- Ec; exact Hocc]]. change (held_vars []) with (@nil nat) in H5. rewrite Hkss in H5.
    eapply wok_ext; [|exact H5]. intros v Hv. rewrite <- Hsum. simpl. lia.
  - exists w4. split; auto. split; [|split; [exact Hk|rewrite <- Ec; exact Hocc]]. rewrite app_nil_r in Hkss. rewrite Hkss in H4.
    eapply wok_ext; [|exact H4]. intros v Hv. exact (Hsum v).
Qed.

Lemma counts_ok tb fl g heur c p quota root dist m st :
  solve_start tb fl g heur c p quota root dist = Ok (m, st) ->
  exists w, lt_solve fl m st = Ok w /\
    owned_by_problem (length (ge (i_graph m))) (i_cons m ++ opt_rows (b_dp st) ++ opt_rows (b_sp st))
      (if fl_cycle_cover fl then 2 else 1) w /\
    exists w', free_prob w = Ok w' /\ all_freed w'.
Proof.
  unfold solve_start. intros H. apply bind_ok in H as (m' & Em & H). apply bind_ok in H as (st' & Es & H).
  inversion H; subst m' st'. clear H.
  destruct (model_rows _ _ _ _ _ _ _ Em) as (pc & rest & Ec & H1 & H2).
  destruct (lt_solve_wok fl m st _ pc rest eq_refl Ec H1 H2 (setup_rows_lt _ _ _ _ _ _ _ Es)) as (w & E & Hw & Hk & Hh).
  exists w. split; auto. split.
  - destruct Hw as ((Hl & Hn) & Hc & _ & _). split; [exact Hl|]. split; [|split].
    + intros v Hv. rewrite Hn by auto. now rewrite Hh.
    + rewrite Hc. repeat (rewrite map_length || rewrite app_length). destruct (fl_cycle_cover fl); cbn [length]; lia.
    + rewrite Hc. apply Forall_map. apply Forall_forall. reflexivity.
  - destruct (free_lt _ _ _ _ Hk Hw) as (w' & E' & Hv & Hc'). exists w'. split; auto. split.
    + apply Forall_forall. intros r Hr. apply In_nth_error in Hr as (i & Hi). destruct Hv as [Hl Hv].
      rewrite Hv in Hi; [congruence|]. rewrite <- Hl. apply nth_error_Some. congruence.
    + rewrite Hc'. apply Forall_map. apply Forall_forall. reflexivity.
Qed.

(** ** knapsack *)
Lemma seq_vget n m : m <= n -> mapM (vget (seq 0 n)) (seq 0 m) = Ok (seq 0 m).
Proof.
  intros H. assert (G : forall l, Forall (fun v => v < n) l -> mapM (vget (seq 0 n)) l = Ok l).
  { induction 1 as [|v l Hv _ IH]; [reflexivity|]. cbn [mapM]. unfold vget.
    rewrite (nth_error_nth' _ 0) by (now rewrite seq_length). rewrite seq_nth by auto. cbn [bind].
    fold (vget (seq 0 n)). rewrite IH. reflexivity. }
  apply G. apply Forall_forall. intros v Hv. apply in_seq in Hv. lia.
Qed.

Lemma seq_vget_far n m : n < m -> mapM (vget (seq 0 n)) (seq 0 m) = UB VecOOB.
Proof.
  intros H. replace m with (n + S (m - n - 1)) by lia. rewrite seq_app. cbn [seq plus].
  assert (G : forall l b, Forall (fun v => v < n) l -> mapM (vget (seq 0 n)) (l ++ n :: b) = UB VecOOB).
  { induction 1 as [|v l Hv _ IH].
    - cbn [app mapM]. unfold vget at 1. rewrite (proj2 (nth_error_None _ _)); [reflexivity|]. rewrite seq_length. lia.
    - cbn [app mapM]. unfold vget at 1. rewrite (nth_error_nth' _ 0) by (now rewrite seq_length). cbn [bind]. now rewrite IH. }
  apply G. apply seq_lt.
Qed.

Lemma occ_seq_if m v : occ (seq 0 m) v = if v <? m then 1 else 0.
Proof.
  destruct (Nat.ltb_spec v m); [now apply occ_seq|]. apply count_occ_not_In. intros H0. apply in_seq in H0. lia.
Qed.

Lemma knapsack_ok costs weights : length weights <= length costs ->
  exists w, lt_knapsack costs weights = Ok (w, 1) /\
    cnt (length costs) (fun v => if v <? length weights then 0 else 1) (w_vars w) /\
    Forall (fun k => fst k = 0) (w_conss w).
Proof.
  intros Hle. unfold lt_knapsack. set (n := length costs) in *. set (k := length weights) in *.
  destruct (edge_variables_lt n) as (w0 & E0 & H0). rewrite E0. cbn [bind].
  rewrite (proj1 (proj2 (proj2 H0))), seq_vget by auto. cbn [bind].
  set (ts := combine _ _).
  assert (Hts : Forall (fun t : nat * Z => fst t < n) ts).
  { apply Forall_forall. intros [v x] Hin. apply in_combine_l in Hin. apply in_seq in Hin. simpl. lia. }
  destruct (linear_lt n _ _ w0 ts H0 Hts) as (w1 & E1 & H1).
  { intros. lia. }
  rewrite E1. cbn [bind app] in *.
  destruct w1 as [cs ks pv pq]. destruct H1 as (Hc & Hk & Hp & Hq). cbn [w_vars w_conss w_pvars w_pconss] in *.
  destruct (release_all n (seq 0 k) _ cs Hc) as (cs1 & E2 & H2).
  { apply Forall_forall. intros v Hv. apply in_seq in Hv. lia. }
  { intros v Hv. rewrite occ_seq_if. destruct (v <? k); lia. }
  rewrite (free_vars _ _ _ _ _ _ E2). cbn [bind].
  destruct (free_lt n (fun v => if v <? k then 0 else 1) [held_vars ts] (mkWorld cs1 ks pv pq)) as (w' & E3 & H3 & H4).
  { constructor; [|constructor]. now apply held_lt. }
  { split; [|cbn [w_vars w_conss w_pvars w_pconss]; auto]. cbn [w_vars]. eapply cnt_ext; [|exact H2].
    intros v Hv. cbn beta. rewrite occ_seq_if. unfold sumocc. cbn [concat]. rewrite app_nil_r. destruct (v <? k); lia. }
  rewrite E3. cbn [bind]. exists w'. split; [reflexivity|]. split; auto. rewrite H4. repeat constructor.
Qed.

Lemma knapsack_far costs weights : length costs < length weights -> lt_knapsack costs weights = UB VecOOB.
Proof.
  intros H. unfold lt_knapsack. destruct (edge_variables_lt (length costs)) as (w0 & E0 & H0). rewrite E0. cbn [bind].
  rewrite (proj1 (proj2 (proj2 H0))), seq_vget_far by auto. reflexivity.
Qed.

(** ** pointers *)
Lemma readers_ok rs : run_readers [AMapSolve; AGraph; ARoot; AQuota] (model_probdata true) rs = Ok tt.
Proof. unfold run_readers. induction rs as [|r rs IH]; [reflexivity|]. destruct r; exact IH. Qed.

Lemma readers_dangling r rs : run_readers [AMapSolve; AGraph; ARoot; AQuota] (model_probdata false) (r :: rs) = UB UseAfterFree.
Proof. destruct r; reflexivity. Qed.

Lemma readers_gone e r rs : run_readers [] (model_probdata e) (r :: rs) = UB UseAfterFree.
Proof. destruct r, e; reflexivity. Qed.

Lemma pointer_life_elided during : pointer_life true during [] = Ok tt.
Proof. unfold pointer_life. rewrite readers_ok. reflexivity. Qed.

Lemma pointer_life_copied during : pointer_life false during [] = match during with [] => Ok tt | _ => UB UseAfterFree end.
Proof. unfold pointer_life. destruct during as [|r rs]; [reflexivity|]. rewrite readers_dangling. reflexivity. Qed.

Lemma pointer_life_later during r later : pointer_life true during (r :: later) = UB UseAfterFree.
Proof. unfold pointer_life. rewrite readers_ok. cbn [bind]. apply readers_gone. Qed.

(** ** left-over objects *)
Lemma left_full fl : left_over (solve_hops fl) = ((if fl_cycle_cover fl then [] else [OCycleHdlr]) ++ [OLogFile], 0).
Proof. destruct fl as [[] [] [] ? ?]; reflexivity. Qed.

Lemma hops_made fl o :
  (In (Include o) (solve_hops fl) <-> In o [OProbData; OSubtourHdlr; ONodeHdlr; OBoundsHdlr] \/
     (o = ODisjointHdlr /\ fl_disjoint_paths fl = true) \/ (o = OShortestHdlr /\ fl_shortest_path fl = true) \/ (o = OCycleHdlr /\ fl_cycle_cover fl = true)) /\
  (In (New o) (solve_hops fl) <-> In (Include o) (solve_hops fl) \/ o = OCycleHdlr \/ o = OLogFile) /\
  NoDup (solve_hops fl).
Proof.
  destruct fl as [[] [] [] ? ?]; (split; [|split]); try (destruct o; cbn; intuition discriminate);
    repeat (constructor; [cbn; intuition discriminate|]); constructor.
Qed.

Lemma left_cut fl k : 0 < k < length (solve_hops fl) ->
  snd (left_over (firstn k (solve_hops fl))) = 1 /\
  forall o, In o (fst (left_over (firstn k (solve_hops fl)))) ->
    nth_error (solve_hops fl) (k - 1) = Some (New o) \/ o = OLogFile \/ (o = OCycleHdlr /\ fl_cycle_cover fl = false).
Proof.
  intros [H0 H1].
  assert (Hk : k < 20) by (destruct fl as [[] [] [] ? ?]; cbn in H1; lia).
  destruct fl as [[] [] [] ? ?]; cbn [solve_hops model_hops fl_cycle_cover fl_disjoint_paths fl_shortest_path app length] in *;
  do 20 (destruct k as [|k]; [first [exfalso; lia
    | split; [reflexivity|]; cbn; intros o Ho; repeat (destruct Ho as [<-|Ho]; [auto 6|]); contradiction] |]); exfalso; lia.
Qed.

(** ** the prize constraint alone *)
Lemma occ_NoDup l v : NoDup l -> occ l v = if memb v l then 1 else 0.
Proof.
  intros H. destruct (memb v l) eqn:E.
  - apply memb_In in E. now apply NoDup_count_occ'.
  - apply count_occ_not_In. intros I. apply memb_In in I. congruence.
Qed.

Lemma prize_alone n ts : NoDup (map fst ts) -> Forall (fun t : nat * Z => fst t < n) ts ->
  exists w w' w'', lt_edge_variables n empty_world = Ok w /\ lt_prize w ts = Ok w' /\ free_prob w' = Ok w'' /\
    (forall v, v < n -> nth_error (w_vars w') v = Some (holders [mkLin ts None None] v + (if memb v (map fst ts) then 1 else 2))) /\
    (forall v, v < n -> nth_error (w_vars w'') v = Some (if memb v (map fst ts) then 0 else 1)).
Proof.
  intros Hnd HF. destruct (edge_variables_lt n) as (w & E & H).
  destruct (prize_lt n _ _ w ts H Hnd HF) as (w' & E' & H').
  { intros. lia. }
  cbn [app] in H'.
  assert (Hh : forall v, holders [mkLin ts None None] v = occ (held_vars ts) v).
  { intros v. rewrite holders_occ. unfold sumocc. cbn [map concat l_terms]. now rewrite app_nil_r. }
  destruct (free_lt n (fun v => if memb v (map fst ts) then 0 else 1) [held_vars ts] w') as (w'' & E'' & H'' & _).
  { constructor; [|constructor]. now apply held_lt. }
  { eapply wok_ext; [|exact H']. intros v Hv. cbn beta. rewrite (occ_NoDup (map fst ts)) by auto. unfold sumocc. cbn [concat].
    rewrite app_nil_r. destruct (memb v (map fst ts)); lia. }
  exists w, w', w''. split; auto. split; auto. split; auto. split.
  - intros v Hv. destruct H' as ((_ & Hn) & _). rewrite Hn by auto. rewrite (occ_NoDup (map fst ts)) by auto.
    rewrite Hh. f_equal. destruct (memb v (map fst ts)); lia.
  - exact (proj2 H'').
Qed.
