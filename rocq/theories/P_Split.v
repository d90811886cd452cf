(** * P_Split: walks in a split graph *)
From Verif Require Import Base Graph Spec Spec_Cover P_Base M_Python M_PyCycle M_Suurballe M_DisjointMap Spec_Python Spec_Suurballe Spec_Split P_Python P_Suurballe P_SuurFinal.
Open Scope nat_scope.

(** ** Edges of walks *)

Lemma walk_edges_app a x b : walk_edges (a ++ x :: b) = walk_edges (a ++ [x]) ++ walk_edges (x :: b).
Proof.
  induction a as [|u a IH]; [reflexivity|]. destruct a as [|v a]; [reflexivity|].
  change ((u, v) :: walk_edges ((v :: a) ++ x :: b) = (u, v) :: walk_edges ((v :: a) ++ [x]) ++ walk_edges (x :: b)).
  rewrite IH. reflexivity.
Qed.

Lemma walk_edges_In p e : In e (walk_edges p) -> exists a b, p = a ++ fst e :: snd e :: b.
Proof.
  induction p as [|u p IH]; [intros []|]. destruct p as [|v p]; [intros []|]. intros [<-|I].
  - exists [], p. reflexivity.
  - destruct (IH I) as (a & b & E). exists (u :: a), b. cbn [app]. rewrite <- E. reflexivity.
Qed.

Lemma walk_edges_fst p e : In e (walk_edges p) -> In (fst e) p.
Proof. intros I. destruct (walk_edges_In p e I) as (a & b & ->). apply in_app_iff. cbn. auto. Qed.

Lemma walk_edges_NoDup p : NoDup p -> NoDup (walk_edges p).
Proof.
  induction p as [|u p IH]; intros N; [constructor|]. destruct p as [|v p]; [constructor|]. inversion N; subst.
  change (NoDup ((u, v) :: walk_edges (v :: p))). constructor; [|apply IH; assumption].
  intros I. apply walk_edges_fst in I. cbn in I. contradiction.
Qed.

Lemma not_NoDup (l : list nat) : ~ NoDup l -> exists a x b d, l = a ++ x :: b ++ x :: d.
Proof.
  induction l as [|u l IH]; intros H; [destruct H; constructor|].
  destruct (in_dec Nat.eq_dec u l) as [I|N].
  - destruct (in_split _ _ I) as (b & d & ->). exists [], u, b, d. reflexivity.
  - destruct IH as (a & x & b & d & E); [intros Q; apply H; constructor; assumption|].
    exists (u :: a), x, b, d. rewrite E. reflexivity.
Qed.

Lemma last_indep (l : list nat) d d' : l <> [] -> last l d = last l d'.
Proof.
  induction l as [|a l IH]; intros N; [congruence|]. destruct l as [|b l]; [reflexivity|]. cbn [last] in *. apply IH. discriminate.
Qed.

Lemma last_cons2 (a b : nat) l d : last (a :: b :: l) d = last (b :: l) a.
Proof. apply (last_indep (b :: l) d a). discriminate. Qed.

(** ** A cheapest pair is a pair of simple paths *)
Lemma drop_cycle D s t p q z : (forall x r y, dwalk D x x r y -> 2 <= length r -> (0 < y)%Z) ->
  disjoint_pair D s t p q z -> ~ NoDup p -> exists p' z', disjoint_pair D s t p' q z' /\ (z' < z)%Z.
Proof.
  intros POS (DJ & N1 & N2 & z1 & z2 & W1 & W2 & ->) ND.
  destruct (not_NoDup p ND) as (a & x & b & d & ->).
  destruct (dwalk_split _ _ _ _ _ _ _ W1) as (y1 & y2 & A & B & E1).
  destruct (dwalk_split D x t y2 (x :: b) x d B) as (y3 & y4 & A' & B' & E2).
  assert (P3 : (0 < y3)%Z) by (apply (POS x _ _ A'); rewrite app_length; cbn; lia).
  exists (a ++ x :: d), (y1 + y4 + z2)%Z. split; [|lia].
  assert (EE : walk_edges (a ++ x :: b ++ x :: d) = walk_edges (a ++ [x]) ++ walk_edges ((x :: b) ++ [x]) ++ walk_edges (x :: d)).
  { rewrite walk_edges_app. f_equal. rewrite app_comm_cons. rewrite (walk_edges_app (x :: b) x d). reflexivity. }
  assert (IC : forall e, In e (walk_edges (a ++ x :: d)) -> In e (walk_edges (a ++ x :: b ++ x :: d))).
  { intros e. rewrite EE, (walk_edges_app a x d), !in_app_iff. tauto. }
  split; [intros e I; apply DJ, IC; exact I|]. split.
  { rewrite (walk_edges_app a x d). rewrite EE in N1. apply NoDup_app_iff in N1. destruct N1 as (M1 & M2 & M3).
    apply NoDup_app_iff in M2. destruct M2 as (M4 & M5 & M6). apply NoDup_app_iff. split; [exact M1|]. split; [exact M5|].
    intros e I J. apply (M3 e I). apply in_app_iff. right. exact J. }
  split; [exact N2|]. exists (y1 + y4)%Z, z2. split; [|split; [exact W2|lia]].
  pose proof (dwalk_app _ _ _ _ _ _ _ _ A B') as W. rewrite removelast_last in W. exact W.
Qed.

Lemma pair_sym D s t p q z : disjoint_pair D s t p q z -> disjoint_pair D s t q p z.
Proof.
  intros (DJ & N1 & N2 & z1 & z2 & W1 & W2 & ->). split; [intros e I J; apply (DJ e J I)|]. split; [exact N2|]. split; [exact N1|].
  exists z2, z1. split; [exact W2|]. split; [exact W1|lia].
Qed.

Lemma cheapest_simple D s t p q z : (forall x r y, dwalk D x x r y -> 2 <= length r -> (0 < y)%Z) ->
  disjoint_pair D s t p q z -> (forall p' q' z', disjoint_pair D s t p' q' z' -> (z <= z')%Z) -> NoDup p /\ NoDup q.
Proof.
  intros POS DP MIN. split.
  - destruct (ListDec.NoDup_dec Nat.eq_dec p) as [N|N]; [exact N|].
    destruct (drop_cycle D s t p q z POS DP N) as (p' & z' & DP' & L). specialize (MIN _ _ _ DP'). lia.
  - destruct (ListDec.NoDup_dec Nat.eq_dec q) as [N|N]; [exact N|].
    destruct (drop_cycle D s t q p z POS (pair_sym _ _ _ _ _ _ DP) N) as (p' & z' & DP' & L).
    specialize (MIN _ _ _ (pair_sym _ _ _ _ _ _ DP')). lia.
Qed.

(** ** The split graph *)
Section Split.
Variables (g : graph) (c : list Z) (V : list nat) (vt vh : nat -> nat) (D : dgraph).
Hypothesis SG : split_graph g c V vt vh D.

Notation sw := (split_walk vt vh).
Notation sr := (split_rest vt vh).

Lemma joins_V e u v : joins g e u v -> In u V /\ In v V /\ u <> v.
Proof.
  intros J. destruct (sg_ends _ _ _ _ _ _ SG e u v J) as (A & B). split; [exact A|]. split; [|exact B].
  apply (sg_ends _ _ _ _ _ _ SG e v u). unfold joins in *. tauto.
Qed.

Lemma arc_tail v y w : In v V -> arc D (vt v) y w -> y = vh v /\ w = 0%Z.
Proof.
  intros I A. apply (sg_arcs _ _ _ _ _ _ SG) in A. destruct A as [(u & J & E & -> & ->)|(e & a & b & J & _ & E & _)].
  - apply (sg_tail_inj _ _ _ _ _ _ SG) in E; [|solve [auto]..]. subst. auto.
  - destruct (joins_V _ _ _ J) as (Ia & _). destruct (sg_apart _ _ _ _ _ _ SG v a I Ia E).
Qed.

Lemma arc_head u y w : In u V -> arc D (vh u) y w -> exists e v, joins g e u v /\ nth_error c e = Some w /\ y = vt v.
Proof.
  intros I A. apply (sg_arcs _ _ _ _ _ _ SG) in A. destruct A as [(v & J & E & _ & _)|(e & a & b & J & W & E & ->)].
  - destruct (sg_apart _ _ _ _ _ _ SG v u J I). auto.
  - destruct (joins_V _ _ _ J) as (Ia & _). apply (sg_head_inj _ _ _ _ _ _ SG) in E; [|solve [auto]..]. subst a. eauto.
Qed.

Lemma arc_split v : In v V -> arc D (vt v) (vh v) 0%Z.
Proof. intros I. apply (sg_arcs _ _ _ _ _ _ SG). left. eauto. Qed.

Lemma arc_edge e u v w : joins g e u v -> nth_error c e = Some w -> arc D (vh u) (vt v) w.
Proof. intros J W. apply (sg_arcs _ _ _ _ _ _ SG). right. eauto 8. Qed.

Lemma arc_ends x y w : arc D x y w -> (exists v, In v V /\ x = vt v) \/ (exists v, In v V /\ x = vh v).
Proof.
  intros A. apply (sg_arcs _ _ _ _ _ _ SG) in A. destruct A as [(v & J & -> & _ & _)|(e & a & b & J & W & -> & _)]; [left; eauto|].
  right. destruct (joins_V _ _ _ J) as (Ia & _). eauto.
Qed.

Lemma arc_ends_r x y w : arc D x y w -> (exists v, In v V /\ y = vt v) \/ (exists v, In v V /\ y = vh v).
Proof.
  intros A. apply (sg_arcs _ _ _ _ _ _ SG) in A. destruct A as [(v & J & _ & -> & _)|(e & a & b & J & W & _ & ->)]; [right; eauto|].
  left. destruct (joins_V _ _ _ J) as (_ & Ia & _). eauto.
Qed.

Lemma split_no_loop u w : ~ arc D u u w.
Proof.
  intros A. destruct (arc_ends _ _ _ A) as [(v & I & ->)|(v & I & ->)].
  - destruct (arc_tail _ _ _ I A) as (E & _). apply (sg_apart _ _ _ _ _ _ SG v v I I E).
  - destruct (arc_head _ _ _ I A) as (e & b & J & _ & E). destruct (joins_V _ _ _ J) as (_ & Ib & _).
    apply (sg_apart _ _ _ _ _ _ SG b v Ib I). auto.
Qed.

Lemma split_split_like s : split_like D s.
Proof.
  intros v x u1 u2 u3 w1 w2 w3 w4 _ NU A1 A2 A3 A4.
  destruct (arc_ends _ _ _ A3) as [(b & Ib & ->)|(b & Ib & ->)].
  - destruct (arc_tail _ _ _ Ib A3) as (-> & _). apply (sg_arcs _ _ _ _ _ _ SG) in A4.
    destruct A4 as [(d & Id & -> & E & _)|(e & a & d & J & _ & _ & E)].
    + apply (sg_head_inj _ _ _ _ _ _ SG) in E; [|solve [auto]..]. subst. reflexivity.
    + destruct (joins_V _ _ _ J) as (_ & Id & _). destruct (sg_apart _ _ _ _ _ _ SG d b Id Ib). auto.
  - exfalso. apply NU. apply (sg_arcs _ _ _ _ _ _ SG) in A1, A2.
    assert (X : forall u w, (exists v, In v V /\ u = vt v /\ vh b = vh v /\ w = 0%Z) \/
      (exists e a d, joins g e a d /\ nth_error c e = Some w /\ u = vh a /\ vh b = vt d) -> u = vt b).
    { intros u w [(d & Id & -> & E & _)|(e & a & d & J & _ & _ & E)].
      - apply (sg_head_inj _ _ _ _ _ _ SG) in E; [|solve [auto]..]. subst. reflexivity.
      - destruct (joins_V _ _ _ J) as (_ & Id & _). destruct (sg_apart _ _ _ _ _ _ SG d b Id Ib). auto. }
    rewrite (X _ _ A1), (X _ _ A2). reflexivity.
Qed.

(** *** walks *)
Lemma walk_in_V w z : any_cost g c w z -> 2 <= length w -> incl w V.
Proof.
  induction 1 as [u|u v w e x z J X W IH]; intros L; [cbn in L; lia|]. destruct (joins_V _ _ _ J) as (A & B & _).
  intros y [<-|I]; [exact A|]. destruct w as [|a w]; [destruct I as [<-|[]]; exact B|]. apply IH; [cbn; lia|exact I].
Qed.

Lemma split_walk_ok p : forall u z, any_cost g c (u :: p) z -> p <> [] -> dwalk D (vh u) (vt (last p u)) (sw (u :: p)) z.
Proof.
  induction p as [|a p IH]; intros u z W N; [congruence|]. inversion W as [|? ? ? e x z' J X W']; subst.
  destruct p as [|b p].
  - inversion W'; subst. cbn. apply (dw_cons D _ (vt a)); [apply (arc_edge e); assumption|constructor].
  - destruct (joins_V _ _ _ J) as (_ & Ia & _).
    change (sw (u :: a :: b :: p)) with (vh u :: vt a :: sw (a :: b :: p)).
    replace (last (a :: b :: p) u) with (last (b :: p) a) by (symmetry; apply last_cons2).
    apply (dw_cons D _ (vt a)); [apply (arc_edge e); assumption|]. replace z' with (0 + z')%Z by lia.
    apply (dw_cons D _ (vh a)); [apply arc_split; exact Ia|]. apply IH; [exact W'|discriminate].
Qed.

Lemma split_walk_inv x y P z : dwalk D x y P z -> forall t, In t V -> y = vt t ->
  (forall u, In u V -> x = vh u -> exists p, p <> [] /\ last p u = t /\ P = sw (u :: p) /\ any_cost g c (u :: p) z) /\
  (forall u, In u V -> x = vt u -> (u = t /\ P = [vt u] /\ z = 0%Z) \/
     exists p, p <> [] /\ last p u = t /\ P = vt u :: sw (u :: p) /\ any_cost g c (u :: p) z).
Proof.
  induction 1 as [x|x a y P w z A W IH]; intros t It ->.
  - split.
    + intros u Iu E. destruct (sg_apart _ _ _ _ _ _ SG t u It Iu E).
    + intros u Iu E. left. apply (sg_tail_inj _ _ _ _ _ _ SG) in E; [|solve [auto]..]. subst. auto.
  - destruct (IH t It eq_refl) as (H1 & H2). split.
    + intros u Iu ->. destruct (arc_head _ _ _ Iu A) as (e & v & J & X & ->). destruct (joins_V _ _ _ J) as (_ & Iv & _).
      destruct (H2 v Iv eq_refl) as [(-> & -> & ->)|(p & N & L & -> & AC)].
      * exists [t]. split; [discriminate|]. split; [reflexivity|]. split; [reflexivity|].
        apply (ac_cons g c u t [] e); [exact J|exact X|constructor].
      * exists (v :: p). split; [discriminate|]. split.
        { destruct p as [|b p]; [congruence|]. rewrite <- L. apply last_cons2. }
        split; [destruct p; [congruence|reflexivity]|]. apply (ac_cons g c u v p e); assumption.
    + intros u Iu ->. destruct (arc_tail _ _ _ Iu A) as (-> & ->). right.
      destruct (H1 u Iu eq_refl) as (p & N & L & -> & AC). exists p. split; [exact N|]. split; [exact L|]. split; [reflexivity|].
      replace (0 + z)%Z with z by lia. exact AC.
Qed.

(** *** edges of the split walk *)
Lemma split_edges p : forall u, p <> [] -> forall e, In e (walk_edges (sw (u :: p))) <->
  (exists a b, In (a, b) (walk_edges (u :: p)) /\ e = (vh a, vt b)) \/ (exists a, In a (removelast p) /\ e = (vt a, vh a)).
Proof.
  induction p as [|v p IH]; intros u N e; [congruence|]. destruct p as [|b p].
  - cbn. split.
    + intros [<-|[]]. left. exists u, v. auto.
    + intros [(a & b & [E|[]] & ->)|(a & [] & _)]. inversion E; subst. auto.
  - change (sw (u :: v :: b :: p)) with (vh u :: vt v :: sw (v :: b :: p)).
    change (In e ((vh u, vt v) :: (vt v, vh v) :: walk_edges (sw (v :: b :: p))) <->
      (exists a d, In (a, d) ((u, v) :: walk_edges (v :: b :: p)) /\ e = (vh a, vt d)) \/ (exists a, In a (v :: removelast (b :: p)) /\ e = (vt a, vh a))).
    cbn [In]. rewrite (IH v) by discriminate. split.
    + intros [<-|[<-|[(a & d & I & ->)|(a & I & ->)]]]; [left; exists u, v; auto|right; exists v; auto|left; eauto|right; eauto].
    + intros [(a & d & [E|I] & ->)|(a & [E|I] & ->)]; [inversion E; subst; auto|right; right; left; eauto|subst; auto|right; right; right; eauto].
Qed.

Lemma split_rest_In p x : In x (sr p) -> exists v, In v p /\ (x = vt v \/ x = vh v).
Proof.
  induction p as [|v p IH]; intros I; [destruct I|]. cbn in I. destruct I as [<-|I]; [exists v; cbn; auto|].
  destruct p as [|b p]; [destruct I|]. destruct I as [<-|I]; [exists v; cbn; auto|]. destruct (IH I) as (w & J & E). exists w. cbn in *. auto.
Qed.

Lemma split_rest_NoDup p : NoDup p -> incl p V -> NoDup (sr p).
Proof.
  induction p as [|v p IH]; intros N I; [constructor|]. inversion N; subst.
  assert (Iv : In v V) by (apply I; left; reflexivity). assert (Ip : incl p V) by (intros x J; apply I; right; exact J).
  assert (X : forall x, In x (sr p) -> x <> vt v /\ x <> vh v).
  { intros x J. destruct (split_rest_In p x J) as (w & K & E). split; intros ->.
    - destruct E as [E|E]; [apply (sg_tail_inj _ _ _ _ _ _ SG) in E; [|solve [auto]..]; subst; contradiction|].
      apply (sg_apart _ _ _ _ _ _ SG v w Iv (Ip w K) E).
    - destruct E as [E|E]; [apply (sg_apart _ _ _ _ _ _ SG w v (Ip w K) Iv); auto|].
      apply (sg_head_inj _ _ _ _ _ _ SG) in E; [|solve [auto]..]; subst; contradiction. }
  cbn. destruct p as [|b p]; [repeat constructor; intros []|]. constructor.
  - intros [E|J]; [apply (sg_apart _ _ _ _ _ _ SG v v Iv Iv); auto|]. destruct (X _ J) as (Q & _). congruence.
  - constructor; [intros J; destruct (X _ J) as (_ & Q); congruence|]. apply IH; assumption.
Qed.

Lemma split_walk_NoDup p : NoDup p -> incl p V -> NoDup (sw p).
Proof.
  destruct p as [|u p]; intros N I; [constructor|]. inversion N; subst.
  assert (Iu : In u V) by (apply I; left; reflexivity). assert (Ip : incl p V) by (intros x J; apply I; right; exact J).
  cbn. constructor; [|apply split_rest_NoDup; assumption]. intros J. destruct (split_rest_In p _ J) as (w & K & [E|E]).
  - apply (sg_apart _ _ _ _ _ _ SG w u (Ip w K) Iu). auto.
  - apply (sg_head_inj _ _ _ _ _ _ SG) in E; [|solve [auto]..]. subst. contradiction.
Qed.

Lemma split_rest_tail p v : In v p -> In (vt v) (sr p).
Proof.
  induction p as [|y p IH]; intros I; [destruct I|]. cbn [split_rest]. destruct I as [->|I]; [left; reflexivity|].
  right. destruct p as [|z p]; [destruct I|]. right. apply IH. exact I.
Qed.

Lemma split_rest_head p v : In v (removelast p) -> In (vh v) (sr p).
Proof.
  induction p as [|y p IH]; intros I; [destruct I|]. destruct p as [|z p]; [destruct I|].
  change (In v (y :: removelast (z :: p))) in I. change (In (vh v) (vt y :: vh y :: sr (z :: p))).
  destruct I as [->|I]; [right; left; reflexivity|]. right. right. apply IH. exact I.
Qed.

Lemma NoDup_split_rest p : NoDup (sr p) -> NoDup p.
Proof.
  induction p as [|v p IH]; intros N; [constructor|]. destruct p as [|b p]; [repeat constructor; intros []|].
  change (NoDup (vt v :: vh v :: sr (b :: p))) in N.
  inversion N as [|? ? NI N1]; subst. inversion N1 as [|? ? NJ N2]; subst. constructor; [|apply IH; exact N2].
  intros I. exact (NI (or_intror (split_rest_tail (b :: p) v I))).
Qed.

Lemma NoDup_split_walk u p : NoDup (sw (u :: p)) -> incl (u :: p) V -> NoDup p /\ (In u p -> u = last p u /\ ~ In u (removelast p)).
Proof.
  intros N I. cbn in N. inversion N as [|? ? NI N1]; subst. split; [apply NoDup_split_rest; exact N1|].
  assert (X : ~ In u (removelast p)).
  { intros J. apply NI. apply split_rest_head. exact J. }
  intros J. split; [|exact X]. destruct (exists_last (l := p)) as (q & y & ->); [intros ->; destruct J|].
  rewrite last_last. rewrite removelast_last in X. apply in_app_iff in J. destruct J as [J|[J|[]]]; [contradiction|auto].
Qed.

Lemma leads_cons s t p : leads s t p -> s <> t -> exists p', p = s :: p' /\ p' <> [] /\ last p' s = t.
Proof.
  intros (H & L) N. destruct p as [|a p]; [discriminate|]. cbn in H. inversion H; subst. destruct p as [|b p]; [cbn in N; congruence|].
  exists (b :: p). split; [reflexivity|]. split; [discriminate|]. reflexivity.
Qed.

Lemma ends_edge s t p : NoDup (s :: p) -> p <> [] -> last p s = t -> In (s, t) (walk_edges (s :: p)) -> p = [t].
Proof.
  intros N NE L I. destruct (walk_edges_In _ _ I) as (a & b & E). cbn [fst snd] in E.
  destruct a as [|x a].
  - injection E as E. rewrite E in *. clear E p. destruct b as [|y b]; [reflexivity|]. exfalso. rewrite last_cons2 in L.
    inversion N as [|? ? _ N1]; subst. inversion N1 as [|? ? N2 _]; subst. apply N2.
    destruct (exists_last (l := y :: b)) as (r & w & R); [discriminate|]. rewrite R in *. rewrite last_last in L. subst w. apply in_app_iff. cbn. auto.
  - exfalso. cbn in E. injection E as E1 E2. subst x. inversion N as [|? ? N1 _]; subst. apply N1. rewrite E2. apply in_app_iff. cbn. auto.
Qed.

Lemma last_not_fst p e : NoDup p -> In e (walk_edges p) -> fst e <> last p (fst e).
Proof.
  intros N I E. destruct (walk_edges_In _ _ I) as (a & b & Q). destruct (exists_last (l := snd e :: b)) as (r & w & R); [discriminate|].
  rewrite Q, R in E. replace (a ++ fst e :: r ++ [w]) with ((a ++ fst e :: r) ++ [w]) in E by (rewrite <- app_assoc; reflexivity).
  rewrite last_last in E. rewrite Q, R in N. apply NoDup_remove_2 in N. apply N. rewrite E at 1. apply in_app_iff. right. apply in_app_iff. cbn. auto.
Qed.

Lemma edge_snd_not_hd s p e : NoDup (s :: p) -> In e (walk_edges (s :: p)) -> snd e <> s /\ In (snd e) p.
Proof.
  intros N I. destruct (walk_edges_In _ _ I) as (a & b & Q). inversion N; subst. destruct a as [|x a]; cbn in Q; inversion Q; subst.
  - split; [intros E; apply H1; rewrite <- E; left; reflexivity|left; reflexivity].
  - split; [intros E; apply H1; rewrite <- E; apply in_app_iff; cbn; auto|apply in_app_iff; cbn; auto].
Qed.

(** Vertex-disjoint paths become edge-disjoint walks. *)
Lemma disjoint_of_vertex s t p q z : vertex_disjoint g c s t p q z -> s <> t -> disjoint_pair D (vh s) (vt t) (sw p) (sw q) z.
Proof.
  intros (L1 & L2 & NE & N1 & N2 & DJ & z1 & z2 & W1 & W2 & ->) NST.
  destruct (leads_cons _ _ _ L1 NST) as (p' & -> & NP & LP). destruct (leads_cons _ _ _ L2 NST) as (q' & -> & NQ & LQ).
  assert (VP : incl (s :: p') V) by (apply (walk_in_V _ _ W1); destruct p'; [congruence|cbn; lia]).
  assert (VQ : incl (s :: q') V) by (apply (walk_in_V _ _ W2); destruct q'; [congruence|cbn; lia]).
  split; [|split; [|split]].
  - intros e I J. apply split_edges in I; [|exact NP]. apply split_edges in J; [|exact NQ].
    assert (EV : forall r a b, incl r V -> In (a, b) (walk_edges r) -> In a V /\ In b V /\ In a r /\ In b r).
    { intros r a b VR K. destruct (walk_edges_In _ _ K) as (l1 & l2 & Q). cbn [fst snd] in Q.
      assert (In a r) by (rewrite Q; apply in_app_iff; cbn; auto). assert (In b r) by (rewrite Q; apply in_app_iff; cbn; auto).
      auto 6. }
    assert (RV : forall (r : list nat) a, In a (removelast r) -> In a r).
    { intros r a K. destruct r as [|x r]; [destruct K|]. destruct (exists_last (l := x :: r)) as (y & w & Q); [discriminate|]. rewrite Q in *.
      rewrite removelast_last in K. apply in_app_iff. auto. }
    destruct I as [(a & b & I & ->)|(a & I & ->)]; destruct J as [(a' & b' & J & E)|(a' & J & E)].
    + injection E as EA EB. destruct (EV _ _ _ VP I) as (V1 & V2 & P1 & P2). destruct (EV _ _ _ VQ J) as (V3 & V4 & P3 & P4).
      apply (sg_head_inj _ _ _ _ _ _ SG) in EA; [|assumption..]. apply (sg_tail_inj _ _ _ _ _ _ SG) in EB; [|assumption..]. subst a' b'.
      assert (a = s).
      { destruct (DJ a P1 P3) as [Q|Q]; [exact Q|]. exfalso. subst a. apply (last_not_fst _ _ N1 I). cbn [fst].
        rewrite <- LP at 1. destruct p' as [|x p']; [congruence|]. rewrite last_cons2. apply last_indep. discriminate. }
      subst a. assert (b = t).
      { destruct (DJ b P2 P4) as [Q|Q]; [|exact Q]. destruct (edge_snd_not_hd _ _ _ N1 I) as (R & _). cbn in R. contradiction. }
      subst b. apply NE. f_equal. rewrite (ends_edge s t p' N1 NP LP I), (ends_edge s t q' N2 NQ LQ J). reflexivity.
    + injection E as EA _. destruct (EV _ _ _ VP I) as (V1 & V2 & P1 & P2). apply RV in J.
      apply (sg_apart _ _ _ _ _ _ SG a' a); auto. apply VQ. right. exact J.
    + injection E as EA _. destruct (EV _ _ _ VQ J) as (V1 & V2 & P1 & P2). apply RV in I.
      apply (sg_apart _ _ _ _ _ _ SG a a'); auto. apply VP. right. exact I.
    + injection E as EA _. pose proof (RV _ _ I) as I'. pose proof (RV _ _ J) as J'.
      apply (sg_tail_inj _ _ _ _ _ _ SG) in EA; [|apply VP; right; exact I'|apply VQ; right; exact J']. subst a'.
      destruct (DJ a (or_intror I') (or_intror J')) as [Q|Q].
      * subst a. inversion N1; subst. contradiction.
      * subst a. inversion N1 as [|? ? _ N3]; subst. destruct (exists_last NP) as (r & y & E). rewrite E in *.
        rewrite removelast_last in I. rewrite last_last in I. apply NoDup_app_iff in N3. destruct N3 as (_ & _ & N3). apply (N3 y I). left. reflexivity.
  - apply walk_edges_NoDup, split_walk_NoDup; assumption.
  - apply walk_edges_NoDup, split_walk_NoDup; assumption.
  - exists z1, z2. split; [|split; [|reflexivity]].
    + rewrite <- LP. apply split_walk_ok; assumption.
    + rewrite <- LQ. apply split_walk_ok; assumption.
Qed.

Lemma any_cost_split a x b z : any_cost g c (a ++ x :: b) z -> exists z1 z2, any_cost g c (a ++ [x]) z1 /\ any_cost g c (x :: b) z2 /\ z = (z1 + z2)%Z.
Proof.
  revert z. induction a as [|u a IH]; intros z W.
  - exists 0%Z, z. split; [constructor|]. split; [exact W|lia].
  - destruct a as [|v a].
    + inversion W as [|? ? ? e y z' J X W']; subst. exists (y + 0)%Z, z'. split; [apply (ac_cons g c u x [] e); [exact J|exact X|constructor]|].
      split; [exact W'|lia].
    + inversion W as [|? ? ? e y z' J X W']; subst. destruct (IH _ W') as (z1 & z2 & A & B & ->).
      exists (y + z1)%Z, z2. split; [apply (ac_cons g c u v (a ++ [x]) e); assumption|]. split; [exact B|lia].
Qed.

Lemma any_cost_snoc a x e v w z : any_cost g c (a ++ [x]) z -> joins g e x v -> nth_error c e = Some w -> any_cost g c (a ++ [x; v]) (z + w)%Z.
Proof.
  intros W J X. revert z W. induction a as [|u a IH]; intros z W.
  - inversion W; subst. change ([] ++ [x; v]) with [x; v]. replace (0 + w)%Z with (w + 0)%Z by lia. apply (ac_cons g c x v [] e); [exact J|exact X|constructor].
  - destruct a as [|b a].
    + inversion W as [|? ? ? e' y z' J' X' W']; subst. specialize (IH _ W'). cbn in IH |- *. rewrite <- Z.add_assoc.
      apply (ac_cons g c u x [v] e'); assumption.
    + inversion W as [|? ? ? e' y z' J' X' W']; subst. specialize (IH _ W'). cbn in IH |- *. rewrite <- Z.add_assoc.
      apply (ac_cons g c u b (a ++ [x; v]) e'); assumption.
Qed.

Lemma any_cost_rev w z : any_cost g c w z -> any_cost g c (rev w) z.
Proof.
  induction 1 as [u|u v w e x z J X W IH]; [constructor|]. cbn in IH |- *. rewrite <- app_assoc. cbn.
  rewrite Z.add_comm. apply (any_cost_snoc (rev w) v e u); [exact IH| |exact X]. unfold joins in *. tauto.
Qed.

(** A tour through [v] is a pair of vertex-disjoint paths to [v]. *)
Lemma tour_is_pair root t z v : tour_from g root t -> any_cost g c t z -> In v t -> v <> root ->
  exists p q, vertex_disjoint g c root v p q z.
Proof.
  intros (vs & -> & ND & L & _) W I NR. assert (Iv : In v vs).
  { destruct I as [I|I]; [congruence|]. apply in_app_iff in I. destruct I as [I|[I|[]]]; [exact I|congruence]. }
  destruct (in_split _ _ Iv) as (a & b & ->).
  replace (root :: (a ++ v :: b) ++ [root]) with ((root :: a) ++ v :: b ++ [root]) in W by (cbn; rewrite <- app_assoc; reflexivity).
  destruct (any_cost_split _ _ _ _ W) as (z1 & z2 & W1 & W2 & ->).
  apply any_cost_rev in W2. cbn in W2. rewrite rev_app_distr in W2. cbn in W2.
  inversion ND as [|? ? NI ND']; subst. apply NoDup_app_iff in ND'. destruct ND' as (NA & NB & DAB). inversion NB as [|? ? NVB NB']; subst.
  rewrite in_app_iff in NI. cbn in NI.
  exists ((root :: a) ++ [v]), (root :: rev b ++ [v]).
  assert (NVA : ~ In v a) by (intros J; apply (DAB v J); left; reflexivity).
  split; [split; [reflexivity|apply last_last]|]. split.
  { split; [reflexivity|]. change (root :: rev b ++ [v]) with ((root :: rev b) ++ [v]). apply last_last. }
  split.
  { intros E. cbn in E. inversion E as [E']. apply app_inj_tail in E'. destruct E' as (E' & _). subst a.
    destruct b as [|y b]; [cbn in L; lia|]. apply (DAB y); [apply in_rev; rewrite rev_involutive; left; reflexivity|right; left; reflexivity]. }
  split.
  { cbn. constructor; [rewrite in_app_iff; cbn; tauto|]. apply NoDup_app_iff. split; [exact NA|]. split; [repeat constructor; intros []|].
    intros y J [<-|[]]. contradiction. }
  split.
  { constructor; [rewrite in_app_iff, <- in_rev; cbn; tauto|]. apply NoDup_app_iff. split; [apply NoDup_rev; exact NB'|]. split; [repeat constructor; intros []|].
    intros y J [<-|[]]. apply in_rev in J. contradiction. }
  split.
  { intros y J K. cbn in J. destruct J as [J|J]; [auto|]. destruct K as [K|K]; [auto|]. rewrite in_app_iff in J, K.
    destruct J as [J|[J|[]]]; [|auto]. destruct K as [K|[K|[]]]; [|auto]. exfalso. apply (DAB y J). right. apply in_rev. exact K. }
  exists z1, z2. split; [exact W1|]. split; [exact W2|reflexivity].
Qed.

(** Simple edge-disjoint walks are vertex-disjoint paths. *)
Lemma vertex_of_disjoint s t P Q z : In s V -> In t V -> s <> t -> disjoint_pair D (vh s) (vt t) P Q z -> NoDup P -> NoDup Q ->
  exists p q, P = sw p /\ Q = sw q /\ incl p V /\ incl q V /\ 2 <= length p /\ 2 <= length q /\ vertex_disjoint g c s t p q z.
Proof.
  intros Is It NST (DJ & _ & _ & z1 & z2 & W1 & W2 & ->) N1 N2.
  destruct (split_walk_inv _ _ _ _ W1 t It eq_refl) as (H1 & _). destruct (H1 s Is eq_refl) as (p & NP & LP & -> & AP).
  destruct (split_walk_inv _ _ _ _ W2 t It eq_refl) as (H2 & _). destruct (H2 s Is eq_refl) as (q & NQ & LQ & -> & AQ).
  assert (P2 : 2 <= length (s :: p)) by (destruct p; [congruence|cbn; lia]). assert (Q2 : 2 <= length (s :: q)) by (destruct q; [congruence|cbn; lia]).
  pose proof (walk_in_V _ _ AP P2) as VP. pose proof (walk_in_V _ _ AQ Q2) as VQ.
  destruct (NoDup_split_walk _ _ N1 VP) as (M1 & K1). destruct (NoDup_split_walk _ _ N2 VQ) as (M2 & K2).
  assert (S1 : ~ In s p) by (intros I; destruct (K1 I) as (E & _); congruence). assert (S2 : ~ In s q) by (intros I; destruct (K2 I) as (E & _); congruence).
  exists (s :: p), (s :: q). split; [reflexivity|]. split; [reflexivity|]. split; [exact VP|]. split; [exact VQ|]. split; [exact P2|]. split; [exact Q2|].
  split; [split; [reflexivity|rewrite <- LP; destruct p; [congruence|rewrite last_cons2; apply last_indep; discriminate]]|].
  split; [split; [reflexivity|rewrite <- LQ; destruct q; [congruence|rewrite last_cons2; apply last_indep; discriminate]]|].
  split.
  { intros E. inversion E; subst. destruct q as [|b q]; [congruence|]. apply (DJ (vh s, vt b)); cbn; destruct q; left; reflexivity. }
  split; [constructor; assumption|]. split; [constructor; assumption|]. split.
  { intros v [->|I] J; [auto|]. destruct J as [->|J]; [auto|]. right.
    destruct (Nat.eq_dec v t) as [E|NE]; [exact E|]. exfalso.
    assert (X : forall r, r <> [] -> last r s = t -> In v r -> In v (removelast r)).
    { intros r NR LR K. destruct (exists_last NR) as (r' & y & ->). rewrite last_last in LR. subst y. rewrite removelast_last.
      apply in_app_iff in K. destruct K as [K|[K|[]]]; [exact K|congruence]. }
    apply (DJ (vt v, vh v)); apply split_edges; try assumption; right; exists v; auto. }
  exists z1, z2. auto.
Qed.

Lemma dwalk_nonneg' x y r z : (forall e w, nth_error c e = Some w -> (0 <= w)%Z) -> dwalk D x y r z -> (0 <= z)%Z.
Proof.
  intros POS. induction 1 as [x|x a y P w z A W IH]; [lia|]. apply (sg_arcs _ _ _ _ _ _ SG) in A.
  destruct A as [(v & _ & _ & _ & ->)|(e & u & v & _ & X & _)]; [lia|]. specialize (POS _ _ X). lia.
Qed.

Lemma positive_cycle x r z : (forall e w, nth_error c e = Some w -> (0 < w)%Z) -> dwalk D x x r z -> 2 <= length r -> (0 < z)%Z.
Proof.
  intros POS W L. assert (NN : forall e w, nth_error c e = Some w -> (0 <= w)%Z) by (intros e w E; specialize (POS e w E); lia).
  inversion W as [? E1 E2|? a ? P w z' A W' E1 E2]; subst; [cbn in L; lia|].
  pose proof (dwalk_nonneg' _ _ _ _ NN W') as NZ. apply (sg_arcs _ _ _ _ _ _ SG) in A.
  destruct A as [(v & Iv & -> & -> & ->)|(e & u & v & _ & X & _)]; [|specialize (POS _ _ X); lia].
  inversion W' as [u' E1 E2 E3|? b ? P' w' z'' A' W'' E1 E2]; subst; [destruct (sg_apart _ _ _ _ _ _ SG v v Iv Iv); auto|].
  destruct (arc_head _ _ _ Iv A') as (e & y & _ & X & _). pose proof (dwalk_nonneg' _ _ _ _ NN W''). specialize (POS _ _ X). lia.
Qed.
End Split.
