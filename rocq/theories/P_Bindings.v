(** * P_Bindings: lemmas for C52 *)
From Coq Require Import Permutation.
From Verif Require Import Base Graph Spec Spec_Gain M_Float M_Walk M_Graph M_Dijkstra M_Extension M_Collapse M_Gain
  M_Renaming Spec_Rename.
From Verif Require Import P_Base P_Walk P_Dijkstra P_Extension P_Collapse P_Gain P_Renaming.
Open Scope nat_scope.

Lemma NoDup_same_length {A} (l l' : list A) : NoDup l -> NoDup l' -> (forall x, In x l <-> In x l') ->
  length l = length l'.
Proof. intros H H' E. apply Nat.le_antisymm; apply NoDup_incl_length; auto; intros x; apply E. Qed.

Section BIND.
Context (G : graph) (cd : list ((nat * nat) * Z)) (pd : list (nat * Z)) (c p : list Z) (n : nat).
Context (HG : graph_ok G) (Hc : costs_given G cd c) (Hp : prizes_given G pd p) (Hn : vertex_count (ge G) n).

(** Everything the bindings do before the heuristic, and what is known of the result. *)
Lemma bind_setup : exists labels out q,
  let g := add_edges_to_graph (mkGraph 0 []) out in
  rename_graph (ge G) = (bm_of labels, g) /\ first_appearance (ends (ge G)) labels /\ NoDup labels /\
  Forall2 (edge_named labels) (ge G) out /\ gn g = n /\ graph_ok g /\ length (ge g) = length (ge G) /\
  fill_maps (bm_of labels) g cd pd = Ok (c, q) /\
  (forall a u, nth_error labels a = Some u -> nth_error q a = nth_error p u) /\ length q = n.
Proof.
  destruct (rename_edges_ok (ge G)) as (out & E & Hnd & HF).
  set (labels := labels_of (ends (ge G))) in *.
  pose proof (labels_first (ends (ge G))) as Hfa. fold labels in Hfa.
  destruct (fill_prize_ok G labels out Hfa Hnd HF pd p Hp) as (q & Eq & Hql & Hq).
  exists labels, out, q. cbv zeta.
  assert (Hgn : gn (add_edges_to_graph (mkGraph 0 []) out) = n).
  { rewrite (iso_gn G labels out Hfa Hnd HF). destruct Hn as (vs & Hv & Hi & <-).
    apply NoDup_same_length; auto. intros x. rewrite Hi. apply Hfa. }
  split; [unfold rename_graph; now rewrite E|]. split; auto. split; auto. split; auto. split; auto.
  split; [apply (iso_ok G labels out Hfa Hnd HF)|]. split; [apply (iso_len G labels out HF)|].
  split; [|split; [auto|congruence]].
  unfold fill_maps. rewrite (fill_cost_ok G labels out Hfa Hnd HF cd c Hc). cbn [bind].
  rewrite Eq. reflexivity.
Qed.

Context (lo hi plo phi : Z).
Context (Hcw : costs_within G c lo hi) (Hpw : prizes_within G p plo phi).

Section INSIDE.
Context (labels : list nat) (out : list (nat * nat)) (q : list Z).
Let g := add_edges_to_graph (mkGraph 0 []) out.
Context (Hfa : first_appearance (ends (ge G)) labels) (Hnd : NoDup labels).
Context (HF : Forall2 (edge_named labels) (ge G) out).
Context (Hq : forall a u, nth_error labels a = Some u -> nth_error q a = nth_error p u).

Lemma in_costs : costs_within g c lo hi.
Proof. destruct Hcw as [H1 H2]. split; auto. unfold g. now rewrite (iso_len G labels out HF). Qed.

Lemma in_prizes : gn g = n -> length q = n -> prizes_within g q plo phi.
Proof.
  intros Hgn Hql. split; [congruence|]. apply Forall_forall. intros x Hx. apply In_nth_error in Hx as [a Ha].
  assert (Hal : a < length labels).
  { rewrite <- (iso_gn G labels out Hfa Hnd HF). fold g. rewrite Hgn, <- Hql. eapply nth_error_Some_lt; eauto. }
  destruct (nth_error labels a) as [u|] eqn:E; [|apply nth_error_None in E; lia].
  rewrite (Hq a u E) in Ha. apply nth_error_In in Ha. destruct Hpw as [_ H]. rewrite Forall_forall in H. auto.
Qed.

Lemma in_tour R m T : closed_tour G R m T ->
  exists r t, nth_error labels r = Some R /\ renamed labels t T /\ closed_tour g r m t /\
    get_new_vertices (bm_of labels) T = Ok t /\ get_new_vertex (bm_of labels) R = Ok r.
Proof.
  intros HT. pose proof (closed_in_labels G labels Hfa R m T HT) as Hin.
  destruct (renamed_exists' labels T Hin) as [t Ht].
  assert (HR : In R labels).
  { destruct HT as (VS & -> & _). inversion Hin; auto. }
  apply In_nth_error in HR as [r Hr]. exists r, t. split; auto. split; auto.
  split; [now apply (iso_closed G labels out Hfa Hnd HF HG r R m t T Hr Ht)|].
  split; [now apply get_new_vertices_ok|now apply get_new_ok].
Qed.

Lemma out_tour R r m t : nth_error labels r = Some R -> closed_tour g r m t ->
  exists T, renamed labels t T /\ closed_tour G R m T /\ get_old_vertices (bm_of labels) t = Ok T.
Proof.
  intros Hr Ht. assert (Hl : Forall (fun a => a < length labels) t).
  { destruct Ht as (vs & -> & _ & _ & _ & H). unfold g in H. now rewrite (iso_gn G labels out Hfa Hnd HF) in H. }
  destruct (renamed_exists labels t Hl) as [T HT]. exists T. split; auto.
  split; [now apply (iso_closed G labels out Hfa Hnd HF HG r R m t T Hr HT)|now apply get_old_vertices_ok].
Qed.

Lemma in_prize t T z : renamed labels t T -> (tour_prize q t z <-> tour_prize p T z).
Proof. intros H. apply (iso_prize labels q p _ _ z Hq). now apply renamed_removelast. Qed.

Lemma in_sum t T z : renamed labels t T -> (prize_sum q t z <-> prize_sum p T z).
Proof. intros H. now apply (iso_prize labels q p _ _ z Hq). Qed.

Lemma in_cost t T z : renamed labels t T -> (walk_cost g c t z <-> walk_cost G c T z).
Proof. intros H. now apply (iso_cost G labels out Hnd HF c). Qed.

Lemma in_edge a b u v : nth_error labels a = Some u -> nth_error labels b = Some v -> (is_edge g a b <-> is_edge G u v).
Proof.
  intros Ha Hb. split; intros [e He]; exists e; now apply (iso_joins G labels out Hnd HF e a b u v).
Qed.

Lemma hd_renamed t T : renamed labels t T -> forall x, hd_error t = Some x ->
  exists y, nth_error labels x = Some y /\ hd_error T = Some y.
Proof. intros H x Hx. destruct H as [|a u t T Ha HF']; [discriminate|]. cbn in *. inversion Hx; subst. eauto. Qed.

Lemma out_cycle t t' T T' : renamed labels t T -> renamed labels t' T' -> same_cycle t t' -> same_cycle T T'.
Proof.
  intros H H' (a & b & x & y & -> & -> & Hx & Hy).
  apply Forall2_app_inv_l in H as (A & BX & HA & HBX & ->).
  apply Forall2_app_inv_l in HBX as (B & X & HB & HX & ->).
  apply Forall2_app_inv_l in H' as (B' & AY & HB' & HAY & ->).
  apply Forall2_app_inv_l in HAY as (A' & Y & HA' & HY & ->).
  assert (A' = A) by (eapply renamed_fun; eauto). assert (B' = B) by (eapply renamed_fun; eauto). subst A' B'.
  inversion HX as [|? X0 ? ? HX0 HX1]; subst. inversion HX1; subst.
  inversion HY as [|? Y0 ? ? HY0 HY1]; subst. inversion HY1; subst.
  exists A, B, X0, Y0. split; auto. split; auto.
  split.
  - destruct (hd_renamed (a ++ b) (A ++ B)) with (x := x) as (x' & E1 & E2); auto; [now apply Forall2_app|]. congruence.
  - destruct (hd_renamed (b ++ a) (B ++ A)) with (x := y) as (x' & E1 & E2); auto; [now apply Forall2_app|]. congruence.
Qed.

Lemma renamed_nth t T : renamed labels t T -> forall i,
  match nth_error t i, nth_error T i with
  | Some a, Some u => nth_error labels a = Some u
  | None, None => True
  | _, _ => False
  end.
Proof.
  induction 1 as [|a u t T Ha HF' IH]; intros [|i]; cbn; auto. apply IH.
Qed.

Lemma in_cyclic t T i w W : renamed labels t T -> renamed labels w W -> cyclic_sub T i W -> cyclic_sub t i w.
Proof.
  intros Ht Hw H k Hk. rewrite (Forall2_length_eq _ _ _ Hw) in Hk. specialize (H k Hk).
  rewrite (Forall2_length_eq _ _ _ Ht).
  pose proof (renamed_nth w W Hw k) as N1. pose proof (renamed_nth t T Ht ((i + k) mod (length T - 1))) as N2.
  rewrite H in N1.
  destruct (nth_error w k) as [a|], (nth_error t ((i + k) mod (length T - 1))) as [b|],
    (nth_error T ((i + k) mod (length T - 1))) as [u|]; try tauto.
  f_equal. eapply lab_inj; eauto.
Qed.

Lemma cyclic_in_labels t T i W : renamed labels t T -> cyclic_sub T i W -> 2 <= length T -> exists w, renamed labels w W.
Proof.
  intros Ht H Hl. apply renamed_exists'. apply Forall_forall. intros u Hu. apply In_nth_error in Hu as [k Hk].
  assert (Hkl : k < length W) by (eapply nth_error_Some_lt; eauto).
  rewrite (H k Hkl) in Hk. apply nth_error_In in Hk.
  destruct (Forall2_In_r' _ _ _ _ Ht Hk) as (a & _ & Ha). eapply nth_error_In; eauto.
Qed.

Lemma in_quota t T quota i W X : renamed labels t T -> 2 <= length T -> quota_path p quota T i W X ->
  exists w x, renamed labels w W /\ nth_error labels x = Some X /\ quota_path q quota t i w x.
Proof.
  intros Ht Hl (Hcy & Hne & Hlen & z & y & Hz & Hy & Hlt & Hge).
  destruct (cyclic_in_labels t T i (W ++ [X]) Ht Hcy Hl) as [wx Hwx].
  pose proof Hwx as Hwx'. apply Forall2_app_inv_r in Hwx' as (w & lx & Hw & Hlx & ->).
  inversion Hlx as [|x ? ? ? Hx Hnil]; subst. inversion Hnil; subst.
  exists w, x. split; auto. split; auto. split; [now apply (in_cyclic t T i (w ++ [x]) (W ++ [X]))|].
  split; [intros ->; inversion Hw; congruence|].
  split; [now rewrite (Forall2_length_eq _ _ _ Hw), (Forall2_length_eq _ _ _ Ht)|].
  exists z, y. split; [now apply (in_sum w W)|]. split; [now rewrite (Hq x X Hx)|auto].
Qed.

Lemma in_vertex_collapse quota w W EXT : renamed labels w W -> vertex_collapse G p quota W EXT ->
  exists ext, renamed labels ext EXT /\ vertex_collapse g q quota w ext.
Proof.
  intros Hw (A & B & L & V & -> & -> & Hni & HE1 & HE2 & z & Hz & Hzq).
  inversion Hw as [|a ? w0 ? Ha Hw0]; subst. apply Forall2_app_inv_r in Hw0 as (l & lb & Hl & Hlb & ->).
  inversion Hlb as [|b ? ? ? Hb Hnil]; subst. inversion Hnil; subst.
  destruct HE1 as [e1 He1]. destruct (iso_joins_ex' G labels Hfa e1 B V He1) as (b' & v & Hb' & Hv).
  assert (b' = b) by (eapply lab_inj; eauto). subst b'.
  exists [b; v; a]. split; [repeat constructor; auto|].
  exists a, b, l, v. split; auto. split; auto. split.
  { rewrite (renamed_In labels Hnd (a :: l ++ [b]) (A :: L ++ [B]) Hw v V Hv). exact Hni. }
  split; [apply (in_edge b v B V); auto; now exists e1|]. split; [apply (in_edge v a V A); auto|].
  exists z. split; auto. apply (in_sum ((a :: l ++ [b]) ++ [v]) ((A :: L ++ [B]) ++ [V])); auto.
  apply Forall2_app; [exact Hw|repeat constructor; auto].
Qed.

Lemma out_gain t T v i x V : renamed labels t T -> nth_error labels v = Some V ->
  (gain_at G c p T V i x -> gain_at g c q t v i x).
Proof.
  intros Ht Hv (HV & Hni & U & W & HU & HW & e1 & e2 & e3 & c1 & c2 & c3 & qq & S1 & S2 & S3 & C1 & C2 & C3 & Q & ->).
  pose proof (renamed_nth t T Ht i) as N1. pose proof (renamed_nth t T Ht (S i)) as N2. rewrite HU in N1. rewrite HW in N2.
  destruct (nth_error t i) as [u|] eqn:Eu; [|tauto]. destruct (nth_error t (S i)) as [w|] eqn:Ew; [|tauto].
  split. { unfold g. rewrite (iso_gn G labels out Hfa Hnd HF). eapply nth_error_Some_lt; eauto. }
  split. { now rewrite (renamed_In labels Hnd t T Ht v V Hv). }
  exists u, w. split; auto. split; auto.
  exists e1, e2, e3, c1, c2, c3, qq.
  split; [now apply (iso_step G labels out Hnd HF u v U V e1)|].
  split; [now apply (iso_step G labels out Hnd HF v w V W e2)|].
  split; [now apply (iso_step G labels out Hnd HF u w U W e3)|].
  repeat (split; auto). now rewrite (Hq v V Hv).
Qed.

Lemma gain_label T V i x : gain_at G c p T V i x -> exists v, nth_error labels v = Some V.
Proof.
  intros (_ & _ & U & W & _ & _ & e1 & _ & _ & _ & _ & _ & _ & [He1 _] & _).
  destruct (iso_joins_ex' G labels Hfa e1 U V He1) as (a & b & _ & Hb). eauto.
Qed.

Lemma out_subseq t t' : subseq t t' -> forall T T', renamed labels t T -> renamed labels t' T' -> subseq T T'.
Proof.
  induction 1 as [|x a b H IH|x a b H IH]; intros T T' HT HT'.
  - inversion HT; inversion HT'; subst. constructor.
  - inversion HT as [|? u ? A Hu HA]; inversion HT' as [|? u' ? B Hu' HB]; subst.
    assert (u' = u) by congruence. subst. constructor. auto.
  - inversion HT' as [|? u' ? B Hu' HB]; subst. constructor. auto.
Qed.
End INSIDE.
End BIND.

Ltac setup H labels out q :=
  let HG := fresh "HG" in let Hc := fresh "Hc" in let Hp := fresh "Hp" in let Hn := fresh "Hn" in
  destruct H as (HG & Hc & Hp & Hn);
  destruct (bind_setup _ _ _ _ _ _ Hc Hp Hn)
    as (labels & out & q & Eg & Hfa & Hnd & HF & Hgn & Hgok & Hlen & Ef & Hq & Hql);
  cbv zeta in *.

Lemma maps_filled G cd pd c p n : call_with G cd pd c p n ->
  exists bm g q labels, rename_graph (ge G) = (bm, g) /\ fill_maps bm g cd pd = Ok (c, q) /\
    first_appearance (ends (ge G)) labels /\ gn g = n /\
    renamed labels (ends (ge g)) (ends (ge G)) /\
    (forall a u, nth_error labels a = Some u -> nth_error q a = nth_error p u).
Proof.
  intros H. setup H labels out q. eexists _, _, q, labels. split; [exact Eg|]. split; [exact Ef|].
  split; auto. split; auto. split; auto. rewrite add_edges_ge. cbn [ge app]. now apply edge_named_ends.
Qed.

Lemma closed_In_root G R m T : closed_tour G R m T -> 2 <= length T.
Proof. intros (VS & -> & _). cbn [length]. rewrite app_length. cbn. lia. Qed.

Lemma collapse_bind_ok G cd pd c p n C P : call_with G cd pd c p n ->
  costs_within G c 0 C -> prizes_within G p 0 P -> (0 <= C)%Z -> (0 <= P)%Z ->
  (2 * (Z.of_nat (S n) * C) <= int_max)%Z -> (3 * (Z.of_nat (S n) * P) <= int_max)%Z ->
  forall tb, good_pick tb -> forall root t s m quota shortest,
  closed_tour G s m t -> m <= 2 -> In root t ->
  exists t' z z', collapse_bind tb (ge G) t cd pd quota root shortest = Ok t' /\
    closed_tour G root m t' /\
    walk_cost G c t z /\ walk_cost G c t' z' /\ (z' <= z)%Z /\
    (forall pz, tour_prize p t pz -> (quota <= pz)%Z ->
        exists pz', tour_prize p t' pz' /\ (quota <= pz')%Z) /\
    (forall pz, tour_prize p t pz -> (pz < quota)%Z -> same_cycle t t') /\
    (forall i w x ext zw ze, i < length t -> quota_path p quota t i w x -> In root w ->
        vertex_collapse G p quota w ext -> walk_cost G c w zw -> walk_cost G c ext ze ->
        (z' <= zw + ze)%Z).
Proof.
  intros Hcall Hcw Hpw HC HP B1 B2 tb Htb R T S0 m quota shortest HT Hm HR. setup Hcall labels out q.
  pose proof (in_costs G c _ _ Hcw labels out HF) as Hcw'.
  pose proof (in_prizes G p n _ _ Hpw labels out q Hfa Hnd HF Hq Hgn Hql) as Hpw'.
  set (g := add_edges_to_graph (mkGraph 0 []) out) in *.
  destruct (in_tour G HG labels out Hfa Hnd HF S0 m T HT) as (s & t & Hs & Ht & Htc & Et & _).
  fold g in Htc.
  destruct (Forall2_In_r' _ _ _ _ Ht HR) as (r & Hrt & Hr).
  rewrite <- Hgn in B1, B2.
  destruct (collapse_ok g c q r C P Hgok Hcw' Hpw' HC HP B1 B2 tb Htb t s m quota shortest Htc Hm Hrt)
    as (t' & z & z' & Ec & Hct' & Hz & Hz' & Hle & Hquo & Hlow & Hopt).
  destruct (out_tour G HG labels out Hfa Hnd HF R r m t' Hr Hct') as (T' & Ht' & HcT' & Eo).
  exists T', z, z'. split.
  { unfold collapse_bind. rewrite Eg. fold g. rewrite (get_new_ok labels r R Hnd Hr). cbn [bind].
    rewrite Et. cbn [bind]. rewrite Ef. cbn [bind fst snd]. rewrite Ec. cbn [bind]. exact Eo. }
  split; [exact HcT'|].
  split; [now apply (in_cost G c labels out Hnd HF t T)|].
  split; [now apply (in_cost G c labels out Hnd HF t' T')|]. split; auto. split; [|split].
  - intros pz Hpz Hge. apply (in_prize p labels q Hq t T pz Ht) in Hpz.
    destruct (Hquo pz Hpz Hge) as (pz' & H1 & H2). exists pz'. split; auto.
    now apply (in_prize p labels q Hq t' T' pz' Ht').
  - intros pz Hpz Hlt. apply (in_prize p labels q Hq t T pz Ht) in Hpz.
    specialize (Hlow pz Hpz Hlt). subst t'.
    eapply out_cycle; eauto. now apply (reorder_closed g s m t r Htc Hrt).
  - intros i W X EXT zw ze Hi Hqp HRW Hvc Hzw Hze.
    destruct (in_quota p labels q Hnd Hq t T quota i W X Ht (closed_In_root G S0 m T HT) Hqp)
      as (w & x & Hw & Hx & Hqp').
    destruct (in_vertex_collapse G p labels out q Hfa Hnd HF Hq quota w W EXT Hw Hvc) as (ext & He & Hvc').
    apply (Hopt i w x ext zw ze); auto.
    + now rewrite (Forall2_length_eq _ _ _ Ht).
    + now apply (renamed_In labels Hnd w W Hw r R Hr).
    + now apply (in_cost G c labels out Hnd HF w W).
    + now apply (in_cost G c labels out Hnd HF ext EXT).
Qed.

Lemma path_extension_bind_ok G cd pd c p n C P : call_with G cd pd c p n ->
  (Z.of_nat n <= int_max)%Z -> costs_within G c (- C) C -> prizes_within G p 0 P -> (0 <= C)%Z -> (0 <= P)%Z ->
  (2 * (Z.of_nat (S n) * C) <= int_max)%Z -> (2 * (Z.of_nat (S n) * P) <= int_max)%Z ->
  forall root step depth t, closed_tour G root 1 t ->
  (int_min <= step <= int_max)%Z -> step <> 0%Z ->
  exists t', path_extension_bind (ge G) t cd pd root step depth = Ok t' /\
    (t' = t \/
     closed_tour G root 2 t' /\
     forall z, tour_prize p t z -> exists z', tour_prize p t' z' /\ (z < z')%Z).
Proof.
  intros Hcall Hni Hcw Hpw HC HP B1 B2 R step depth T HT Hst Hst0. setup Hcall labels out q.
  pose proof (in_costs G c _ _ Hcw labels out HF) as Hcw'.
  pose proof (in_prizes G p n _ _ Hpw labels out q Hfa Hnd HF Hq Hgn Hql) as Hpw'.
  set (g := add_edges_to_graph (mkGraph 0 []) out) in *.
  destruct (in_tour G HG labels out Hfa Hnd HF R 1 T HT) as (r & t & Hr & Ht & Htc & Et & Er).
  fold g in Htc. rewrite <- Hgn in B1, B2, Hni.
  destruct (path_extension_ok g c q r C P Hgok Hni Hcw' Hpw' HC HP B1 B2 step depth t Htc Hst Hst0)
    as (t' & Ec & Hres).
  assert (Hbind : forall T', get_old_vertices (bm_of labels) t' = Ok T' ->
            path_extension_bind (ge G) T cd pd R step depth = Ok T').
  { intros T' Eo. unfold path_extension_bind. rewrite Eg. fold g. rewrite Er. cbn [bind].
    rewrite Et. cbn [bind]. rewrite Ef. cbn [bind fst snd]. rewrite Ec. cbn [bind]. exact Eo. }
  destruct Hres as [->|[Hct' Hpz]].
  - exists T. split; [apply Hbind; now apply get_old_vertices_ok|now left].
  - destruct (out_tour G HG labels out Hfa Hnd HF R r 2 t' Hr Hct') as (T' & Ht' & HcT' & Eo).
    exists T'. split; [auto|]. right. split; auto. intros z Hz. apply (in_prize p labels q Hq t T z Ht) in Hz.
    destruct (Hpz z Hz) as (z' & H1 & H2). exists z'. split; auto. now apply (in_prize p labels q Hq t' T' z' Ht').
Qed.

Lemma until_bind_ok G cd pd c p n C P : call_with G cd pd c p n ->
  (Z.of_nat n <= int_max)%Z -> costs_within G c (- C) C -> prizes_within G p 0 P -> (0 <= C)%Z -> (0 <= P)%Z ->
  (2 * (Z.of_nat (S n) * C) <= int_max)%Z -> (2 * (Z.of_nat (S n) * P) <= int_max)%Z ->
  forall root quota step depth t, closed_tour G root 1 t ->
  (int_min <= step <= int_max)%Z -> step <> 0%Z ->
  exists t', path_extension_until_bind (ge G) t cd pd root quota step depth = Ok t' /\
    (t' = t \/
     closed_tour G root 2 t' /\
     forall z, tour_prize p t z -> exists z', tour_prize p t' z' /\ (z < z')%Z) /\
    (forall z, tour_prize p t z -> (quota <= z)%Z -> t' = t).
Proof.
  intros Hcall Hni Hcw Hpw HC HP B1 B2 R quota step depth T HT Hst Hst0. setup Hcall labels out q.
  pose proof (in_costs G c _ _ Hcw labels out HF) as Hcw'.
  pose proof (in_prizes G p n _ _ Hpw labels out q Hfa Hnd HF Hq Hgn Hql) as Hpw'.
  set (g := add_edges_to_graph (mkGraph 0 []) out) in *.
  destruct (in_tour G HG labels out Hfa Hnd HF R 1 T HT) as (r & t & Hr & Ht & Htc & Et & Er).
  fold g in Htc. rewrite <- Hgn in B1, B2, Hni.
  destruct (path_extension_until_ok g c q r C P Hgok Hni Hcw' Hpw' HC HP B1 B2 quota step depth t Htc Hst Hst0)
    as (t' & Ec & Hres & Hquo).
  assert (Hbind : forall T', get_old_vertices (bm_of labels) t' = Ok T' ->
            path_extension_until_bind (ge G) T cd pd R quota step depth = Ok T').
  { intros T' Eo. unfold path_extension_until_bind. rewrite Eg. fold g. rewrite Er. cbn [bind].
    rewrite Et. cbn [bind]. rewrite Ef. cbn [bind fst snd]. rewrite Ec. cbn [bind]. exact Eo. }
  destruct Hres as [->|[Hct' Hpz]].
  - exists T. split; [apply Hbind; now apply get_old_vertices_ok|]. split; [now left|auto].
  - destruct (out_tour G HG labels out Hfa Hnd HF R r 2 t' Hr Hct') as (T' & Ht' & HcT' & Eo).
    exists T'. split; [auto|]. split.
    + right. split; auto. intros z Hz. apply (in_prize p labels q Hq t T z Ht) in Hz.
      destruct (Hpz z Hz) as (z' & H1 & H2). exists z'. split; auto. now apply (in_prize p labels q Hq t' T' z' Ht').
    + intros z Hz Hge. apply (in_prize p labels q Hq t T z Ht) in Hz.
      specialize (Hquo z Hz Hge). subst t'. eapply renamed_fun; eauto.
Qed.

Lemma combined_bind_ok G cd pd c p n C P : call_with G cd pd c p n ->
  costs_within G c 0 C -> prizes_within G p 0 P -> (0 <= C)%Z -> (0 <= P)%Z ->
  (2 * (Z.of_nat (S n) * C) <= int_max)%Z -> (3 * (Z.of_nat (S n) * P) <= int_max)%Z ->
  forall tb, good_pick tb -> (Z.of_nat n <= int_max)%Z ->
  forall root m quota depth shortest step_size t,
  1 <= m <= 2 -> (step_size < int_max)%Z -> closed_tour G root m t ->
  exists t', path_extension_collapse_bind tb (ge G) t cd pd root quota shortest depth step_size = Ok t' /\
    (t' = [] \/ closed_tour G root m t' /\ exists z, tour_prize p t' z /\ (quota <= z)%Z) /\
    (forall z, tour_prize p t z -> (quota <= z)%Z -> exists x y,
       t' <> [] /\ walk_cost G c t x /\ walk_cost G c t' y /\ (y <= x)%Z).
Proof.
  intros Hcall Hcw Hpw HC HP B1 B2 tb Htb Hni R m quota depth shortest step T Hm Hst HT. setup Hcall labels out q.
  pose proof (in_costs G c _ _ Hcw labels out HF) as Hcw'.
  pose proof (in_prizes G p n _ _ Hpw labels out q Hfa Hnd HF Hq Hgn Hql) as Hpw'.
  set (g := add_edges_to_graph (mkGraph 0 []) out) in *.
  destruct (in_tour G HG labels out Hfa Hnd HF R m T HT) as (r & t & Hr & Ht & Htc & Et & Er).
  fold g in Htc. rewrite <- Hgn in B1, B2, Hni.
  destruct (combined_ok g c q r C P Hgok Hcw' Hpw' HC HP B1 B2 tb Htb Hni m quota depth shortest step t Hm Hst Htc)
    as (t' & Ec & Hres & Hquo).
  assert (Hbind : forall T', get_old_vertices (bm_of labels) t' = Ok T' ->
            path_extension_collapse_bind tb (ge G) T cd pd R quota shortest depth step = Ok T').
  { intros T' Eo. unfold path_extension_collapse_bind. rewrite Eg. fold g. rewrite Er. cbn [bind].
    rewrite Et. cbn [bind]. rewrite Ef. cbn [bind fst snd]. rewrite Ec. cbn [bind]. exact Eo. }
  assert (HT' : exists T', renamed labels t' T' /\ (t' = [] \/ closed_tour G R m T')).
  { destruct Hres as [->|[Hct' _]]; [exists []; split; [constructor|auto]|].
    destruct (out_tour G HG labels out Hfa Hnd HF R r m t' Hr Hct') as (T' & Ht' & HcT' & _). eauto. }
  destruct HT' as (T' & Ht' & HcT'). exists T'. split; [apply Hbind; now apply get_old_vertices_ok|]. split.
  - destruct Hres as [->|[Hct' (z & Hz & Hge)]]; [left; inversion Ht'; auto|].
    destruct HcT' as [->|HcT']; [destruct Hct' as (vs & E & _); discriminate|].
    right. split; auto. exists z. split; auto. now apply (in_prize p labels q Hq t' T' z Ht').
  - intros z Hz Hge. apply (in_prize p labels q Hq t T z Ht) in Hz.
    destruct (Hquo z Hz Hge) as (x & y & Hne & Hx & Hy & Hle). exists x, y.
    split; [intros ->; inversion Ht'; auto|].
    split; [now apply (in_cost G c labels out Hnd HF t T)|].
    split; [now apply (in_cost G c labels out Hnd HF t' T')|auto].
Qed.

Lemma gain_bind_ok G cd pd c p n C P : call_with G cd pd c p n ->
  costs_within G c (- C) C -> prizes_within G p 0 P -> (0 <= P)%Z -> (3 * C <= int_max)%Z ->
  forall root t z, closed_tour G root 1 t -> tour_prize p t z ->
  exists t' z', extension_unitary_gain_bind (ge G) t cd pd = Ok t' /\
    closed_tour G root 1 t' /\ (t' = t \/ closed_tour G root 2 t') /\ subseq t t' /\ length t' <= S n /\
    tour_prize p t' z' /\ (z + (Z.of_nat (length t') - Z.of_nat (length t)) <= z')%Z.
Proof.
  intros Hcall Hcw Hpw HP B1 R T z HT Hz. setup Hcall labels out q.
  pose proof (in_costs G c _ _ Hcw labels out HF) as Hcw'.
  pose proof (in_prizes G p n _ _ Hpw labels out q Hfa Hnd HF Hq Hgn Hql) as Hpw'.
  set (g := add_edges_to_graph (mkGraph 0 []) out) in *.
  destruct (in_tour G HG labels out Hfa Hnd HF R 1 T HT) as (r & t & Hr & Ht & Htc & Et & Er).
  fold g in Htc. apply (in_prize p labels q Hq t T z Ht) in Hz.
  assert (Hpw2 : prizes_within g q (- P) P).
  { destruct Hpw' as [L HFz]. split; auto. eapply Forall_impl; [|exact HFz]. cbn. intros; lia. }
  destruct (extension_unitary_gain_ok g c q C P Hcw' Hpw2 B1 r t Htc)
    as (t' & k & a & Ec & Hs & _ & _ & Hc1 & Hc2 & Hss & Hk1 & Hk2).
  destruct (gain_steps_prize g c q P _ r k t t' z Hpw' Htc Hs Hz) as (z' & Hz' & Hle).
  destruct (out_tour G HG labels out Hfa Hnd HF R r 1 t' Hr Hc1) as (T' & Ht' & HcT' & Eo).
  exists T', z'. split.
  { unfold extension_unitary_gain_bind. rewrite Eg. fold g. rewrite Et. cbn [bind].
    rewrite Ef. cbn [bind fst snd]. rewrite Ec. cbn [bind]. exact Eo. }
  rewrite <- (Forall2_length_eq _ _ _ Ht'), <- (Forall2_length_eq _ _ _ Ht).
  split; [exact HcT'|]. split.
  { destruct Hc2 as [->|Hc2]; [left; eapply renamed_fun; eauto|].
    right. now apply (iso_closed G labels out Hfa Hnd HF HG r R 2 t' T' Hr Ht'). }
  split; [eapply out_subseq; eauto|]. split; [rewrite Hgn in Hk2; lia|].
  split; [now apply (in_prize p labels q Hq t' T' z' Ht')|lia].
Qed.

Lemma extension_bind_ok G cd pd c p n C P : call_with G cd pd c p n ->
  costs_within G c (- C) C -> prizes_within G p (- P) P ->
  (3 * C <= int_max)%Z -> (0 <= P)%Z -> (Z.of_nat (S n) * P <= int_max)%Z ->
  forall root t quota, closed_tour G root 1 t ->
  exists t', extension_until_bind (ge G) t cd pd quota = Ok t' /\
    ((exists z, tour_prize p t' z /\ (quota <= z)%Z) \/
     (forall v i x, gain_at G c p t' v i x -> f_lt f_zero x = false)) /\
    closed_tour G root 1 t' /\ (t' = t \/ closed_tour G root 2 t') /\ subseq t t' /\ length t' <= S n.
Proof.
  intros Hcall Hcw Hpw B1 HP B2 R T quota HT. setup Hcall labels out q.
  pose proof (in_costs G c _ _ Hcw labels out HF) as Hcw'.
  pose proof (in_prizes G p n _ _ Hpw labels out q Hfa Hnd HF Hq Hgn Hql) as Hpw'.
  set (g := add_edges_to_graph (mkGraph 0 []) out) in *.
  destruct (in_tour G HG labels out Hfa Hnd HF R 1 T HT) as (r & t & Hr & Ht & Htc & Et & Er).
  fold g in Htc. rewrite <- Hgn in B2.
  destruct (extension_until_ok g c q C P Hcw' Hpw' B1 HP B2 r t quota Htc)
    as (t' & k & Ec & _ & Hres & Hc1 & Hc2 & Hss & Hk1 & Hk2).
  destruct (out_tour G HG labels out Hfa Hnd HF R r 1 t' Hr Hc1) as (T' & Ht' & HcT' & Eo).
  exists T'. split.
  { unfold extension_until_bind. rewrite Eg. fold g. rewrite Et. cbn [bind].
    rewrite Ef. cbn [bind fst snd]. rewrite Ec. cbn [bind]. exact Eo. }
  rewrite <- (Forall2_length_eq _ _ _ Ht').
  split. { destruct Hres as [(z & Hz & Hge)|Hno].
    - left. exists z. split; auto. now apply (in_prize p labels q Hq t' T' z Ht').
    - right. intros V i x Hga. destruct (gain_label G c p labels Hfa T' V i x Hga) as [v Hv].
      apply (Hno v i x). now apply (out_gain G c p labels out q Hfa Hnd HF Hq t' T' v i x V Ht' Hv). }
  split; [exact HcT'|]. split.
  { destruct Hc2 as [->|Hc2]; [left; eapply renamed_fun; eauto|].
    right. now apply (iso_closed G labels out Hfa Hnd HF HG r R 2 t' T' Hr Ht'). }
  split; [eapply out_subseq; eauto|]. rewrite Hgn in Hk2. lia.
Qed.
