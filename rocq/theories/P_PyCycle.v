(** * P_PyCycle: the breadth-first cycle search is exact *)
From Verif Require Import Base P_Base M_Python Spec_Python P_Python M_PyCycle.
From Coq Require Import Permutation.
Open Scope nat_scope.

Lemma successors_app T T' v : successors (T ++ T') v = successors T v ++ successors T' v.
Proof. unfold successors. now rewrite filter_app, map_app. Qed.
Lemma successors_In T v w : In w (successors T v) <-> In (v, w) T.
Proof.
  unfold successors. rewrite in_map_iff. split.
  - intros ([a b] & E & I). apply filter_In in I as (I & Q). cbn in *. apply Nat.eqb_eq in Q. now subst.
  - intros I. exists (v, w). split; [auto|]. apply filter_In. cbn. now rewrite Nat.eqb_refl.
Qed.
Lemma successors_new v news : successors (map (fun w => (v, w)) news) v = news.
Proof. unfold successors. induction news; cbn; [auto|]. rewrite Nat.eqb_refl. cbn. now f_equal. Qed.
Lemma successors_new_other v u news : u <> v -> successors (map (fun w => (v, w)) news) u = [].
Proof.
  intros Q. unfold successors. induction news; cbn; [auto|].
  destruct (Nat.eqb_spec v u); [congruence|]. auto.
Qed.
Lemma successors_none T v : ~ In v (map fst T) -> successors T v = [].
Proof.
  intros N. destruct (successors T v) as [|w l] eqn:E; [auto|]. exfalso. apply N.
  assert (In w (successors T v)) by (rewrite E; cbn; auto). apply successors_In in H.
  apply in_map_iff. exists (v, w). auto.
Qed.

(** ** The tree *)
(** What networkx's breadth-first tree is: [order] is the order of discovery. *)
Record bfs_tree (g : nxgraph) (root : nat) (T : nxtree) (order : list nat) : Prop := {
  bt_order : order = root :: map snd T;
  bt_nodup : NoDup order;
  bt_kids : map snd T = flat_map (successors T) order;
  bt_adj : forall u w, In (u, w) T -> adj g u w /\ In u order;
  bt_before : forall T1 p w T2, T = T1 ++ (p, w) :: T2 -> In p (root :: map snd T1);
  bt_vertex : forall v, In v order -> vertex g v;
  bt_first : forall a u b w, order = a ++ u :: b -> adj g u w -> w <> root ->
    exists p, In (p, w) T /\ In p (a ++ [u])
}.

Lemma bfs_loop_ok g root : undirected g -> forall fuel fin q T,
  fin ++ q = root :: map snd T -> NoDup (fin ++ q) -> (forall v, In v (fin ++ q) -> vertex g v) ->
  map snd T = flat_map (successors T) fin ->
  (forall u w, In (u, w) T -> adj g u w /\ In u fin) ->
  (forall T1 p w T2, T = T1 ++ (p, w) :: T2 -> In p (root :: map snd T1)) ->
  (forall a u b w, fin = a ++ u :: b -> adj g u w -> w <> root -> exists p, In (p, w) T /\ In p (a ++ [u])) ->
  length g <= length fin + fuel ->
  exists T', bfs_loop fuel g fin q T = Ok T' /\ bfs_tree g root T' (root :: map snd T').
Proof.
  intros U. induction fuel as [|f IH]; intros fin q T O N V K A B F L.
  - destruct q as [|v q].
    + exists T. split; [reflexivity|]. rewrite app_nil_r in *. subst fin. constructor; auto.
    + exfalso. destruct U as (NG & _).
      assert (incl (fin ++ v :: q) (map fst g)) by (intros x I; apply V; auto).
      pose proof (NoDup_incl_length N H) as L'. rewrite app_length, map_length in L'. cbn in L'. lia.
  - destruct q as [|v q].
    + exists T. split; [reflexivity|]. rewrite app_nil_r in *. subst fin. constructor; auto.
    + cbn [bfs_loop]. assert (Vv : vertex g v) by (apply V, in_app_iff; cbn; auto).
      destruct (dget_key g v Vv) as (ns & Ens). unfold nx_neighbors. rewrite Ens. cbn [bind]. cbv zeta.
      set (news := filter (fun w => negb (memb w (fin ++ v :: q))) ns).
      assert (HN : forall w, In w news <-> adj g v w /\ ~ In w (fin ++ v :: q)).
      { intros w. unfold news. rewrite filter_In. split.
        - intros (I & M). split; [exists ns; split; [now apply dget_In|auto]|].
          destruct (memb w (fin ++ v :: q)) eqn:E; [discriminate|]. now apply memb_not_In.
        - intros (Aw & NI). split; [now apply (adj_list g v w ns U Ens)|].
          apply memb_not_In in NI. now rewrite NI. }
      assert (NN : NoDup news).
      { apply NoDup_filter. destruct U as (_ & NL & _). apply (NL v). now apply dget_In. }
      assert (NV : ~ In v fin) by (apply NoDup_app_iff in N as (_ & _ & D); intros I; apply (D v); cbn; auto).
      apply IH.
      * rewrite <- app_assoc. cbn. replace (fin ++ v :: q ++ news) with ((fin ++ v :: q) ++ news) by (now rewrite <- app_assoc).
        rewrite O. cbn. rewrite map_app, map_map. cbn. now rewrite map_id.
      * rewrite <- app_assoc. cbn. replace (fin ++ v :: q ++ news) with ((fin ++ v :: q) ++ news) by (now rewrite <- app_assoc).
        apply NoDup_app_iff. split; [exact N|]. split; [exact NN|]. intros x I J. apply HN in J. tauto.
      * intros x I. rewrite <- app_assoc in I. cbn in I.
        replace (fin ++ v :: q ++ news) with ((fin ++ v :: q) ++ news) in I by (now rewrite <- app_assoc).
        apply in_app_iff in I as [I|I]; [auto|]. apply HN in I as (I & _). now apply (adj_vertex g v x U).
      * rewrite map_app, map_map. cbn. rewrite map_id. rewrite flat_map_app. cbn. rewrite app_nil_r.
        rewrite successors_app, successors_new.
        rewrite (successors_none T v), app_nil_l.
        2:{ intros I. apply in_map_iff in I as ([a b] & Ea & I). cbn in Ea. subst a. apply A in I. tauto. }
        f_equal. rewrite K. generalize news. intros nw. clear - NV. induction fin as [|x fin IHf]; [auto|]. cbn in NV. cbn [flat_map].
        rewrite successors_app, (successors_new_other v x), app_nil_r by (intros ->; auto). f_equal. apply IHf. auto.
      * intros u w I. apply in_app_iff in I as [I|I].
        -- apply A in I as (Au & Iu). split; [auto|]. apply in_app_iff. auto.
        -- apply in_map_iff in I as (x & E & I). injection E as <- <-. apply HN in I as (I & _). split; [auto|].
           apply in_app_iff. cbn. auto.
      * intros T1 p w T2 E.
        assert (G : (exists l, T = T1 ++ (p, w) :: l) \/ (p = v /\ exists l, T1 = T ++ l)).
        { clear - E. revert T1 E. generalize dependent T. intros T. induction T as [|e T IH]; intros T1 E.
          - right. cbn in E. split; [|now exists T1].
            assert (I : In (p, w) (map (fun w : nat => (v, w)) news)) by (rewrite E; apply in_app_iff; cbn; auto).
            apply in_map_iff in I as (x & Ex & _). congruence.
          - destruct T1 as [|e' T1]; cbn in E.
            + injection E as -> E. left. now exists T.
            + injection E as -> E. destruct (IH T1 E) as [(l & ->)|(-> & l & ->)]; [left; now exists l|].
              right. split; [auto|]. now exists l. }
        destruct G as [(l & G)|(-> & l & ->)]; [now apply (B T1 p w l)|].
        rewrite map_app, app_comm_cons, <- O, !in_app_iff. cbn. auto.
      * intros a u b w E Aw Q.
        destruct b as [|b0 b1] using rev_ind.
        -- apply app_inj_tail in E as (<- & <-).
           destruct (in_dec Nat.eq_dec w (fin ++ v :: q)) as [I|I].
           ++ rewrite O in I. destruct I as [->|I]; [tauto|]. apply in_map_iff in I as ([p w'] & Ew & I). cbn in Ew. subst w'.
              exists p. split; [apply in_app_iff; auto|]. apply A in I as (_ & I). apply in_app_iff. auto.
           ++ exists v. split; [apply in_app_iff; right; apply in_map_iff; exists w; split; [auto|now apply HN]|].
              apply in_app_iff. cbn; auto.
        -- replace (a ++ u :: b1 ++ [b0]) with ((a ++ u :: b1) ++ [b0]) in E by (now rewrite <- app_assoc).
           apply app_inj_tail in E as (E & <-). destruct (F a u b1 w E Aw Q) as (p & I & J).
           exists p. split; [apply in_app_iff; auto|auto].
      * rewrite app_length. cbn. lia.
Qed.

Lemma nx_bfs_tree_ok g root : undirected g -> vertex g root ->
  exists T, nx_bfs_tree g root = Ok T /\ bfs_tree g root T (root :: map snd T).
Proof.
  intros U V. unfold nx_bfs_tree. apply (bfs_loop_ok g root U); auto.
  - repeat constructor; cbn; auto.
  - intros v [<-|[]]. exact V.
  - intros u w [].
  - intros T1 p w T2 E. destruct T1; discriminate.
  - intros a u b w E. destruct a; discriminate.
  - cbn. lia.
Qed.

Section Tree.
Variables (g : nxgraph) (root : nat) (T : nxtree) (order : list nat).
Hypothesis (U : undirected g).
Hypothesis (BT : bfs_tree g root T order).

Lemma T_nodup : NoDup (map snd T).
Proof. pose proof (bt_nodup _ _ _ _ BT) as N. rewrite (bt_order _ _ _ _ BT) in N. now inversion N. Qed.
Lemma root_no_parent u : ~ In (u, root) T.
Proof.
  pose proof (bt_nodup _ _ _ _ BT) as N. rewrite (bt_order _ _ _ _ BT) in N. inversion N; subst.
  intros I. apply H1. apply in_map_iff. exists (u, root). auto.
Qed.
Lemma parent_unique p q w : In (p, w) T -> In (q, w) T -> p = q.
Proof.
  pose proof T_nodup as N. revert N. clear. induction T as [|[a b] l IH]; cbn; [tauto|].
  intros N [E|I] [E'|I']; inversion N; subst.
  - congruence.
  - injection E as -> ->. exfalso. apply H1. apply in_map_iff. exists (q, w). auto.
  - injection E' as -> ->. exfalso. apply H1. apply in_map_iff. exists (p, w). auto.
  - auto.
Qed.
Lemma preds_of p w : In (p, w) T -> predecessors T w = [p].
Proof.
  unfold predecessors. pose proof T_nodup as N. revert N. clear. induction T as [|[a b] l IH]; cbn; [tauto|].
  intros N [E|I]; inversion N; subst.
  - injection E as -> ->. rewrite Nat.eqb_refl. cbn. f_equal.
    assert (F : filter (fun e => Nat.eqb (snd e) w) l = []); [|now rewrite F].
    destruct (filter (fun e => Nat.eqb (snd e) w) l) as [|[x y] m] eqn:E; [auto|].
    assert (I : In (x, y) (filter (fun e => Nat.eqb (snd e) w) l)) by (rewrite E; cbn; auto).
    apply filter_In in I as (I & Q). cbn in Q. apply Nat.eqb_eq in Q. subst. exfalso. apply H1.
    apply in_map_iff. exists (x, w). auto.
  - destruct (Nat.eqb_spec b w) as [->|Q]; [|auto]. exfalso. apply H1. apply in_map_iff. exists (p, w). auto.
Qed.
Lemma preds_root : predecessors T root = [].
Proof.
  unfold predecessors. destruct (filter (fun e => Nat.eqb (snd e) root) T) as [|[x y] m] eqn:E; [auto|].
  assert (I : In (x, y) (filter (fun e => Nat.eqb (snd e) root) T)) by (rewrite E; cbn; auto).
  apply filter_In in I as (I & Q). cbn in Q. apply Nat.eqb_eq in Q. subst. now apply root_no_parent in I.
Qed.

(** Vertices of the tree below the root. *)
Definition in_tree (w : nat) : Prop := exists p, In (p, w) T.
Lemma order_cases w : In w order -> w = root \/ in_tree w.
Proof.
  rewrite (bt_order _ _ _ _ BT). intros [->|I]; [auto|]. right.
  apply in_map_iff in I as ([p w'] & E & I). cbn in E. subst. now exists p.
Qed.
Lemma in_tree_order w : in_tree w -> In w order /\ w <> root.
Proof.
  intros (p & I). split.
  - rewrite (bt_order _ _ _ _ BT). right. apply in_map_iff. exists (p, w). auto.
  - intros ->. now apply root_no_parent in I.
Qed.


Lemma T_split p w : In (p, w) T -> exists T1 T2, T = T1 ++ (p, w) :: T2.
Proof. intros I. apply in_split in I as (T1 & T2 & E). eauto. Qed.

(** A parent comes before its children. *)
Lemma parent_before fin rest p w : order = fin ++ rest -> In (p, w) T -> In w fin -> In p fin.
Proof.
  intros E I J. destruct (T_split p w I) as (T1 & T2 & ET).
  pose proof (bt_before _ _ _ _ BT _ _ _ _ ET) as Ip.
  pose proof (bt_order _ _ _ _ BT) as O. pose proof (bt_nodup _ _ _ _ BT) as N.
  assert (EO : order = (root :: map snd T1) ++ w :: map snd T2) by (rewrite O, ET, map_app; reflexivity).
  rewrite EO in E, N. revert fin E J. generalize dependent (root :: map snd T1). intros l Ip N _.
  induction l as [|x l IH]; intros fin E J; [destruct Ip|].
  destruct fin as [|y fin]; [destruct J|]. cbn in E. injection E as Exy E. subst y.
  cbn in N. inversion N as [|? ? NI ND]; subst.
  destruct J as [->|J].
  - exfalso. apply NI. apply in_app_iff. cbn; auto.
  - destruct Ip as [->|Ip]; [cbn; auto|]. cbn. right. apply (IH Ip ND fin E J).
Qed.

(** The path of a vertex in the tree. *)
Inductive tree_path : nat -> list nat -> Prop :=
| tp_root : tree_path root []
| tp_step : forall p w l, tree_path p l -> In (p, w) T -> tree_path w (l ++ [w]).

Lemma path_ok n : forall T1 p w T2, length T1 <= n -> T = T1 ++ (p, w) :: T2 ->
  exists l, tree_path w (l ++ [w]) /\ NoDup (l ++ [w]) /\ incl (l ++ [w]) (map snd (T1 ++ [(p, w)])) /\
    chain (adj g) (root :: l ++ [w]) /\
    forall fuel acc, n < fuel -> path_loop fuel T w acc = Ok (root :: l ++ [w] ++ acc).
Proof.
  induction n as [|n IH]; intros T1 p w T2 L E.
  - destruct T1; [|cbn in L; lia].
    pose proof (bt_before _ _ _ _ BT _ _ _ _ E) as Ip. cbn in Ip. destruct Ip as [<-|[]].
    assert (I : In (root, w) T) by (rewrite E; cbn; auto).
    exists []. split; [apply (tp_step root w []); [constructor|auto]|]. split; [repeat constructor; cbn; auto|].
    split; [intros x J; exact J|]. split.
    + constructor; [|constructor]. now apply (bt_adj _ _ _ _ BT).
    + intros fuel acc F. destruct fuel as [|f]; [lia|]. cbn [path_loop]. rewrite (preds_of root w I).
      destruct f; cbn [path_loop]; rewrite preds_root; reflexivity.
  - pose proof (bt_before _ _ _ _ BT _ _ _ _ E) as Ip.
    assert (I : In (p, w) T) by (rewrite E; apply in_app_iff; cbn; auto).
    assert (NW : ~ In w (map snd T1)).
    { pose proof T_nodup as N. rewrite E, map_app in N. cbn in N. apply NoDup_remove in N as (_ & N).
      intros J. apply N. apply in_app_iff. auto. }
    destruct Ip as [<-|Ip].
    + exists []. split; [apply (tp_step root w []); [constructor|auto]|]. split; [repeat constructor; cbn; auto|].
      split; [intros x [<-|[]]; rewrite map_app; apply in_app_iff; cbn; auto|]. split.
      * constructor; [|constructor]. now apply (bt_adj _ _ _ _ BT).
      * intros fuel acc F. destruct fuel as [|f]; [lia|]. cbn [path_loop]. rewrite (preds_of root w I).
        destruct f; cbn [path_loop]; rewrite preds_root; reflexivity.
    + apply in_map_iff in Ip as ([q p'] & Ep & Ip). cbn in Ep. subst p'.
      apply in_split in Ip as (S1 & S2 & ES). subst T1.
      destruct (IH S1 q p (S2 ++ (p, w) :: T2)) as (l & TP & N & IN & C & PL).
      * rewrite app_length in L. cbn in L. lia.
      * rewrite E, <- app_assoc. reflexivity.
      * exists (l ++ [p]). split; [apply (tp_step p); auto|].
        assert (IN' : incl (l ++ [p]) (map snd (S1 ++ (q, p) :: S2))).
        { intros x J. apply IN in J. rewrite !map_app in *. cbn in *. rewrite !in_app_iff in *. cbn in *. tauto. }
        split; [|split; [|split]].
        -- apply NoDup_app_iff. split; [exact N|]. split; [repeat constructor; cbn; auto|].
           intros x J [<-|[]]. apply NW. now apply IN'.
        -- intros x J. rewrite map_app, in_app_iff. apply in_app_iff in J as [J|J]; [left; now apply IN'|right; cbn in *; tauto].
        -- rewrite <- app_assoc. cbn [app]. change (root :: l ++ [p; w]) with ((root :: l) ++ p :: [w]).
           apply chain_join; [exact C|]. constructor; [now apply (bt_adj _ _ _ _ BT)|constructor].
        -- intros fuel acc F. destruct fuel as [|f]; [lia|]. cbn [path_loop]. rewrite (preds_of p w I).
           rewrite PL by lia. rewrite <- !app_assoc. reflexivity.
Qed.

Lemma tree_path_vertex w : in_tree w -> exists l,
  path_to_vertex_in_tree T w = Ok (root :: l ++ [w]) /\ tree_path w (l ++ [w]) /\ NoDup (l ++ [w]) /\
  ~ In root (l ++ [w]) /\ chain (adj g) (root :: l ++ [w]).
Proof.
  intros (p & I). destruct (T_split p w I) as (T1 & T2 & E).
  destruct (path_ok (length T1) T1 p w T2 (le_n _) E) as (l & TP & N & IN & C & PL).
  exists l. split; [|split; [exact TP|split; [exact N|split; [|exact C]]]].
  - unfold path_to_vertex_in_tree. rewrite PL; [now rewrite app_nil_r|]. rewrite E, app_length. cbn. lia.
  - intros J. apply IN in J. apply in_map_iff in J as ([q r] & Er & J). cbn in Er. subst r.
    apply (root_no_parent q). rewrite E. apply in_app_iff in J. apply in_app_iff. cbn in *. tauto.
Qed.

(** ** Colours *)
Record colored (fin : list nat) (colors : list (nat * nat)) : Prop := {
  co_dom : forall w c, dget colors w = Some c -> exists p, In p fin /\ In (p, w) T;
  co_all : forall p w, In p fin -> In (p, w) T -> exists c, dget colors w = Some c;
  co_up : forall p w, In p fin -> p <> root -> In (p, w) T -> dget colors w = dget colors p;
  co_root : forall w w', In (root, w) T -> In (root, w') T -> dget colors w = dget colors w' -> w = w'
}.

Lemma color_path fin rest colors w l : order = fin ++ rest -> colored fin colors ->
  (exists p, In p fin /\ In (p, w) T) -> tree_path w l -> forall y, In y l -> dget colors y = dget colors w.
Proof.
  intros E CO CW TP. induction TP as [|p w l TP IH I]; intros y J; [destruct J|].
  apply in_app_iff in J as [J|[<-|[]]]; [|auto].
  destruct CW as (p' & Ip & I'). pose proof (parent_unique _ _ _ I I') as <-.
  destruct (Nat.eq_dec p root) as [->|Q].
  - assert (l = []) as ->.
    { assert (G : forall x m, tree_path x m -> x = root -> m = []).
      { intros x m H Ex. destruct H as [|q r m TP' Iq]; [auto|]. rewrite Ex in Iq. now apply root_no_parent in Iq. }
      exact (G root l TP eq_refl). }
    destruct J.
  - rewrite (co_up _ _ CO p w Ip Q I). apply IH; [|exact J].
    destruct (order_cases p) as [->|(q & Iq)]; [rewrite E; apply in_app_iff; auto|tauto|].
    exists q. split; [|exact Iq]. apply (parent_before fin rest q p E Iq Ip).
Qed.

Lemma colored_step fin v rest colors color : order = fin ++ v :: rest -> v <> root -> colored fin colors ->
  dget colors v = Some color ->
  colored (fin ++ [v]) (map (fun k => (k, color)) (successors T v) ++ colors) /\
  (forall w c, dget colors w = Some c -> dget (map (fun k => (k, color)) (successors T v) ++ colors) w = Some c).
Proof.
  intros E QV CO Cv. set (kids := successors T v).
  assert (NV : ~ In v fin).
  { pose proof (bt_nodup _ _ _ _ BT) as N. rewrite E in N. apply NoDup_app_iff in N as (_ & _ & D).
    intros I. apply (D v); cbn; auto. }
  assert (NEW : forall w, In (v, w) T -> dget (map (fun k => (k, color)) kids ++ colors) w = Some color).
  { intros w I. apply successors_In in I. fold kids in I. clearbody kids. induction kids as [|k ks IH]; [destruct I|]. cbn.
    destruct (Nat.eqb_spec w k); [auto|]. apply IH. destruct I; [congruence|auto]. }
  assert (OLD : forall w, ~ In (v, w) T -> dget (map (fun k => (k, color)) kids ++ colors) w = dget colors w).
  { intros w I. rewrite <- successors_In in I. fold kids in I. clear - I. clearbody kids.
    induction kids as [|k ks IH]; [auto|]. cbn.
    destruct (Nat.eqb_spec w k) as [->|]; [cbn in I; tauto|]. apply IH. cbn in I. tauto. }
  assert (DIS : forall p w, In p fin -> In (p, w) T -> ~ In (v, w) T).
  { intros p w Ip I J. pose proof (parent_unique _ _ _ I J). subst. auto. }
  assert (KEEP : forall w c, dget colors w = Some c -> dget (map (fun k => (k, color)) kids ++ colors) w = Some c).
  { intros w c Ew. rewrite OLD; [exact Ew|]. destruct (co_dom _ _ CO w c Ew) as (p & Ip & I). exact (DIS p w Ip I). }
  split; [|exact KEEP]. constructor.
  - intros w c Ew. destruct (in_dec Nat.eq_dec w (successors T v)) as [I|I].
    + apply successors_In in I. exists v. split; [apply in_app_iff; cbn; auto|auto].
    + rewrite successors_In in I. rewrite (OLD w I) in Ew. destruct (co_dom _ _ CO w c Ew) as (p & Ip & J).
      exists p. split; [apply in_app_iff; auto|auto].
  - intros p w Ip I. apply in_app_iff in Ip as [Ip|[<-|[]]].
    + destruct (co_all _ _ CO p w Ip I) as (c & Ec). exists c. auto.
    + exists color. auto.
  - intros p w Ip Qp I. apply in_app_iff in Ip as [Ip|[<-|[]]].
    + destruct (co_all _ _ CO p w Ip I) as (c & Ec).
      pose proof (co_up _ _ CO p w Ip Qp I) as Eu. rewrite Ec in Eu. symmetry in Eu.
      now rewrite (KEEP _ _ Ec), (KEEP _ _ Eu).
    + now rewrite (NEW w I), (KEEP _ _ Cv).
  - intros w w' I I'.
    assert (R : forall x, In (root, x) T -> ~ In (v, x) T).
    { intros x J J'. pose proof (parent_unique _ _ _ J J'). congruence. }
    rewrite (OLD w (R w I)), (OLD w' (R w' I')). apply (co_root _ _ CO); auto.
Qed.

Variable (set_order : list nat -> list nat).
Hypothesis (SO : forall l, Permutation (set_order l) l).

Lemma other_color_ok colors color ns : (forall w, In w ns -> exists c, dget colors w = Some c) ->
  (other_color colors color ns = Ok None /\ forall w, In w ns -> dget colors w = Some color) \/
  (exists w c, other_color colors color ns = Ok (Some w) /\ In w ns /\ dget colors w = Some c /\ c <> color).
Proof.
  induction ns as [|w ns IH]; intros H.
  - left. split; [reflexivity|]. intros w [].
  - destruct (H w) as (c & Ec); [cbn; auto|]. cbn [other_color]. rewrite Ec.
    destruct (Nat.eqb_spec c color) as [->|Q].
    + destruct IH as [(E & A)|(x & d & E & I & Ex & Q)]; [intros; apply H; cbn; auto| |].
      * left. split; [exact E|]. intros y [<-|J]; auto.
      * right. exists x, d. cbn; auto.
    + right. exists w, c. cbn; auto.
Qed.

Lemma same_cycle_impossible colors : colored order colors ->
  (forall v w, in_tree v -> adj g v w -> w <> root -> dget colors w = dget colors v) ->
  forall t, ~ cycle_at (adj g) root t.
Proof.
  intros CO SAME t (vs & -> & N & L & C).
  assert (R : forall x, adj g root x -> x <> root -> In (root, x) T).
  { intros x A Q. destruct (bt_first _ _ _ _ BT [] root (map snd T) x (bt_order _ _ _ _ BT) A Q) as (p & I & J).
    cbn in J. destruct J as [<-|[]]. exact I. }
  destruct vs as [|x vs]; [cbn in L; lia|].
  destruct (exists_last (l := x :: vs) ltac:(discriminate)) as (ws & y & E).
  assert (A1 : adj g root x) by (cbn in C; now inversion C).
  assert (A2 : adj g root y).
  { destruct U as (_ & _ & S). apply S. rewrite E in C.
    replace (root :: (ws ++ [y]) ++ [root]) with ((root :: ws) ++ y :: [root]) in C by (cbn; now rewrite <- app_assoc).
    now apply chain_step in C. }
  assert (Qx : x <> root) by (inversion N; subst; intros ->; apply H1; cbn; auto).
  assert (Qy : y <> root) by (inversion N; subst; intros ->; apply H1; rewrite E; apply in_app_iff; cbn; auto).
  pose proof (R x A1 Qx) as I1. pose proof (R y A2 Qy) as I2.
  assert (W : forall l a, in_tree a -> chain (adj g) (a :: l) -> ~ In root (a :: l) ->
              forall z, In z (a :: l) -> dget colors z = dget colors a).
  { induction l as [|b l IH]; intros a Ta Ca Na z [<-|J]; auto; [destruct J|].
    inversion Ca; subst.
    assert (Qb : b <> root) by (intros ->; apply Na; cbn; auto).
    assert (Tb : in_tree b).
    { destruct (in_tree_order a Ta) as (Ia & _). destruct (in_split _ _ Ia) as (p1 & p2 & Ep).
      destruct (bt_first _ _ _ _ BT p1 a p2 b Ep H1 Qb) as (p & Ip & _). now exists p. }
    rewrite <- (SAME a b Ta H1 Qb). apply IH; auto. intros I. apply Na. cbn; auto. }
  assert (EQ : dget colors y = dget colors x).
  { apply (W vs x).
    - now exists root.
    - cbn in C. inversion C; subst. change (x :: vs ++ [root]) with ((x :: vs) ++ [root]) in H3.
      rewrite E in H3. rewrite E. clear - H3. induction ws as [|a ws IH]; cbn in *; [constructor|].
      destruct ws; cbn in *; inversion H3; subst; constructor; auto.
    - inversion N; subst. auto.
    - rewrite E. apply in_app_iff. cbn; auto. }
  pose proof (co_root _ _ CO y x I2 I1 EQ) as Exy. subst y.
  destruct ws as [|a ws].
  - cbn in E. injection E as Ev. subst vs. cbn in L. lia.
  - cbn in E. injection E as <- Ev. subst vs. inversion N; subst. inversion H2; subst. apply H3. apply in_app_iff. cbn; auto.
Qed.

Lemma flat_prefix fin rest : order = fin ++ rest ->
  order = (root :: flat_map (successors T) fin) ++ flat_map (successors T) rest.
Proof.
  intros E. rewrite (bt_order _ _ _ _ BT) at 1. rewrite (bt_kids _ _ _ _ BT), E, flat_map_app. reflexivity.
Qed.

Lemma rev_rev_chain l w : chain (adj g) (root :: l ++ [w]) -> chain (adj g) (w :: rev l ++ [root]).
Proof.
  intros C. destruct U as (_ & _ & S). apply (chain_rev _ _ S) in C. cbn [rev] in C.
  rewrite rev_app_distr in C. exact C.
Qed.

Lemma cycle_loop_ok : forall fuel fin queue colors rest,
  order = fin ++ rest -> fin ++ queue = root :: flat_map (successors T) fin -> fin <> [] ->
  colored fin colors ->
  (forall v w, In v fin -> in_tree v -> adj g v w -> w <> root -> dget colors w = dget colors v) ->
  length g <= length fin + fuel ->
  exists t, cycle_loop set_order fuel g T queue colors = Ok t /\
    ((t = [] /\ forall t', ~ cycle_at (adj g) root t') \/ cycle_at (adj g) root t).
Proof.
  assert (FIN : forall fin colors rest, order = fin ++ rest -> fin = root :: flat_map (successors T) fin ->
    colored fin colors ->
    (forall v w, In v fin -> in_tree v -> adj g v w -> w <> root -> dget colors w = dget colors v) ->
    forall t', ~ cycle_at (adj g) root t').
  { intros fin colors rest E Q CO SAME. pose proof (flat_prefix fin rest E) as P. rewrite <- Q in P.
    assert (R : rest = flat_map (successors T) rest) by (rewrite E in P; now apply app_inv_head in P).
    assert (rest = []).
    { destruct rest as [|x rest]; [auto|exfalso].
      assert (I : In x (flat_map (successors T) (x :: rest))) by (rewrite <- R; cbn; auto).
      apply in_flat_map in I as (p & Ip & I). apply successors_In in I.
      destruct (T_split p x I) as (T1 & T2 & ET).
      pose proof (bt_before _ _ _ _ BT _ _ _ _ ET) as Jp.
      pose proof (bt_order _ _ _ _ BT) as O. rewrite ET, map_app in O. cbn in O.
      pose proof (bt_nodup _ _ _ _ BT) as N. rewrite O in N.
      assert (EF : fin = root :: map snd T1).
      { rewrite E in O. rewrite E in N || idtac.
        assert (G : forall (a b c d : list nat), a ++ x :: b = c ++ x :: d -> NoDup (c ++ x :: d) -> a = c).
        { clear. induction a as [|y a IH]; intros b c d E N.
          - destruct c as [|z c]; [auto|]. cbn in E. injection E as <- E. cbn in N. inversion N; subst. exfalso. apply H1.
            apply in_app_iff. cbn; auto.
          - destruct c as [|z c]; cbn in E.
            + injection E as -> E. exfalso. cbn in N. inversion N as [|? ? NI ND]. apply NI. rewrite <- E. apply in_app_iff. cbn; auto.
            + injection E as -> E. f_equal. cbn in N. inversion N; subst. eapply IH; eauto. }
        apply (G fin rest (root :: map snd T1) (map snd T2)); [exact O|exact N]. }
      rewrite <- EF in Jp.
      pose proof (bt_nodup _ _ _ _ BT) as N'. rewrite E in N'. apply NoDup_app_iff in N' as (_ & _ & D). exact (D p Jp Ip). }
    subst rest. rewrite app_nil_r in E. subst fin.
    apply (same_cycle_impossible colors CO). intros v w Tv. apply SAME; [|exact Tv]. now apply in_tree_order. }
  induction fuel as [|f IH]; intros fin queue colors rest E Q NE CO SAME L; destruct queue as [|v q].
  - exists []. split; [reflexivity|]. left. split; [auto|]. rewrite app_nil_r in Q. exact (FIN fin colors rest E Q CO SAME).
  - exfalso. pose proof (flat_prefix fin rest E) as P. rewrite <- Q in P.
    assert (incl (fin ++ v :: q) (map fst g)).
    { intros x I. apply (bt_vertex _ _ _ _ BT). rewrite P. apply in_app_iff. auto. }
    assert (N : NoDup (fin ++ v :: q)).
    { pose proof (bt_nodup _ _ _ _ BT) as N. rewrite P in N. now apply NoDup_app_iff in N. }
    pose proof (NoDup_incl_length N H) as L'. rewrite app_length, map_length in L'. cbn in L'. lia.
  - exists []. split; [reflexivity|]. left. split; [auto|]. rewrite app_nil_r in Q. exact (FIN fin colors rest E Q CO SAME).
  - pose proof (flat_prefix fin rest E) as P. rewrite <- Q in P.
    assert (ER : exists rest', rest = v :: rest').
    { rewrite E, <- app_assoc in P. apply app_inv_head in P. cbn in P. eauto. }
    destruct ER as (rest' & ->).
    assert (Qv : v <> root).
    { destruct fin as [|r0 fin]; [tauto|]. pose proof (bt_nodup _ _ _ _ BT) as N. rewrite E in N. cbn in N.
      cbn in Q. injection Q as -> _. inversion N; subst. intros ->. apply H1. apply in_app_iff. cbn; auto. }
    assert (Iv : In v (flat_map (successors T) fin)).
    { assert (I : In v (fin ++ v :: q)) by (apply in_app_iff; cbn; auto). rewrite Q in I. destruct I as [I|I]; [congruence|auto]. }
    apply in_flat_map in Iv as (p & Ip & Iv). apply successors_In in Iv.
    destruct (co_all _ _ CO p v Ip Iv) as (color & Cv).
    assert (Tv : in_tree v) by (now exists p).
    cbn [cycle_loop]. rewrite Cv, (preds_of p v Iv). cbv zeta.
    destruct (colored_step fin v rest' colors color E Qv CO Cv) as (CO' & KEEP).
    set (colors' := map (fun k => (k, color)) (successors T v) ++ colors) in *.
    assert (E' : order = (fin ++ [v]) ++ rest') by (rewrite <- app_assoc; exact E).
    assert (Vv : vertex g v) by (apply (bt_vertex _ _ _ _ BT); rewrite E; apply in_app_iff; cbn; auto).
    destruct (dget_key g v Vv) as (ns & Ens). unfold nx_neighbors. rewrite Ens. cbn [bind].
    set (others := filter (fun w => negb (memb w (p :: successors T v))) ns).
    assert (HO : forall w, In w others <-> adj g v w /\ w <> p /\ ~ In (v, w) T).
    { intros w. unfold others. rewrite filter_In.
      assert (M : negb (memb w (p :: successors T v)) = true <-> ~ In w (p :: successors T v)).
      { destruct (memb w (p :: successors T v)) eqn:Em.
        - apply memb_In in Em. cbn [negb]. split; [discriminate|tauto].
        - apply memb_not_In in Em. cbn [negb]. tauto. }
      rewrite M. cbn [In]. rewrite successors_In. split.
      - intros (I & NI). split; [exists ns; split; [now apply dget_In|auto]|]. split; [intros ->; tauto|tauto].
      - intros (A & Q1 & Q2). split; [now apply (adj_list g v w ns U Ens)|]. intros [H|H]; [congruence|tauto]. }
    assert (NR : forall w, In w others -> w <> root).
    { intros w I -> . apply HO in I as (A & Q1 & _). destruct U as (_ & _ & S).
      destruct (bt_first _ _ _ _ BT [] root (map snd T) v (bt_order _ _ _ _ BT) (S _ _ A) Qv) as (p' & I' & J').
      cbn in J'. destruct J' as [<-|[]]. pose proof (parent_unique _ _ _ Iv I'). congruence. }
    assert (PAR : forall w, adj g v w -> w <> root -> exists p', In p' (fin ++ [v]) /\ In (p', w) T).
    { intros w A Qw. destruct (bt_first _ _ _ _ BT fin v rest' w E A Qw) as (p' & I' & J'). eauto. }
    assert (CW : forall w, adj g v w -> w <> root -> exists c, dget colors' w = Some c).
    { intros w A Qw. destruct (PAR w A Qw) as (p' & I' & J'). exact (co_all _ _ CO' p' w I' J'). }
    destruct (other_color_ok colors' color (set_order others)) as [(Eo & ALL)|(w & c & Eo & I & Ew & Qc)].
    + intros w I. apply (Permutation_in _ (SO others)) in I. apply CW; [now apply HO in I|now apply NR].
    + rewrite Eo. cbn [bind]. apply (IH (fin ++ [v]) (q ++ successors T v) colors' rest' E').
      * rewrite flat_map_app, app_comm_cons, <- Q. cbn. rewrite app_nil_r, <- !app_assoc. reflexivity.
      * destruct fin; discriminate.
      * exact CO'.
      * intros x w I Tx A Qw. apply in_app_iff in I as [I|[<-|[]]].
        -- pose proof (SAME x w I Tx A Qw) as S0.
           destruct Tx as (px & Ipx).
           assert (Cx : exists cx, dget colors x = Some cx).
           { apply (co_all _ _ CO px x); [|exact Ipx]. apply (parent_before fin (v :: rest') px x E Ipx I). }
           destruct Cx as (cx & Ecx). rewrite (KEEP _ _ Ecx). rewrite Ecx in S0. exact (KEEP _ _ S0).
        -- rewrite (KEEP _ _ Cv). destruct (in_dec Nat.eq_dec w others) as [Io|Io].
           ++ apply ALL. apply (Permutation_in _ (Permutation_sym (SO others))). exact Io.
           ++ destruct (Nat.eq_dec w p) as [->|Qp].
              ** pose proof (co_up _ _ CO p v Ip Qw Iv) as Eu. rewrite Cv in Eu. symmetry in Eu. exact (KEEP _ _ Eu).
              ** assert (Ivw : In (v, w) T).
                 { destruct (in_dec Nat.eq_dec w (successors T v)) as [J|J]; [now apply successors_In|].
                   rewrite successors_In in J. exfalso. apply Io. apply HO. auto. }
                 rewrite (co_up _ _ CO' v w); [exact (KEEP _ _ Cv)|apply in_app_iff; cbn; auto|exact Qv|exact Ivw].
      * rewrite app_length. cbn. lia.
    + rewrite Eo. cbn [bind].
      apply (Permutation_in _ (SO others)) in I. pose proof (NR w I) as Qw.
      apply HO in I as (A & _ & _). destruct (PAR w A Qw) as (pw & Ipw & Iw).
      assert (Tw : in_tree w) by (now exists pw).
      destruct (tree_path_vertex v Tv) as (lv & Epv & TPv & Nv & Rv & Chv).
      destruct (tree_path_vertex w Tw) as (lw & Epw & TPw & Nw & Rw & Chw).
      rewrite Epv, Epw. cbn [bind].
      eexists. split; [reflexivity|]. right.
      exists ((lv ++ [v]) ++ w :: rev lw).
      assert (ET : (root :: lv ++ [v]) ++ rev (root :: lw ++ [w]) = root :: ((lv ++ [v]) ++ w :: rev lw) ++ [root]).
      { cbn [rev]. rewrite rev_app_distr. cbn. rewrite <- !app_assoc. reflexivity. }
      split; [exact ET|]. split; [|split].
      * assert (CP : forall x, In x (lv ++ [v]) -> dget colors' x = Some color).
        { intros x J. rewrite (color_path (fin ++ [v]) rest' colors' v (lv ++ [v]) E' CO'); auto.
          exists p. split; [apply in_app_iff; auto|exact Iv]. }
        assert (CQ : forall x, In x (lw ++ [w]) -> dget colors' x = Some c).
        { intros x J. rewrite (color_path (fin ++ [v]) rest' colors' w (lw ++ [w]) E' CO'); [exact Ew| |exact TPw|exact J].
          exists pw. auto. }
        assert (Erev : w :: rev lw = rev (lw ++ [w])) by (rewrite rev_app_distr; reflexivity).
        rewrite Erev. constructor.
        -- rewrite in_app_iff, <- in_rev. tauto.
        -- apply NoDup_app_iff. split; [exact Nv|]. split; [now apply NoDup_rev|].
           intros x J J'. apply in_rev in J'. apply CP in J. apply CQ in J'. congruence.
      * rewrite !app_length. cbn. lia.
      * rewrite ET. replace (root :: ((lv ++ [v]) ++ w :: rev lw) ++ [root]) with ((root :: lv) ++ v :: (w :: rev lw ++ [root]))
          by (cbn; rewrite <- !app_assoc; reflexivity).
        apply chain_join; [exact Chv|]. constructor; [exact A|]. apply rev_rev_chain. exact Chw.
Qed.
End Tree.

Lemma find_cycle_ok set_order g root : (forall l, Permutation (set_order l) l) -> undirected g -> vertex g root ->
  exists t, find_cycle_from_bfs set_order g root = Ok t /\
    ((t = [] /\ forall t', ~ cycle_at (adj g) root t') \/ cycle_at (adj g) root t).
Proof.
  intros SO U V. unfold find_cycle_from_bfs. destruct (nx_bfs_tree_ok g root U V) as (T & -> & BT). cbn [bind]. cbv zeta.
  set (kids := successors T root).
  assert (KN : NoDup kids).
  { pose proof (T_nodup _ _ _ _ BT) as N. unfold kids, successors. revert N. clear. induction T as [|[a b] l IH]; cbn; intros N; [constructor|].
    inversion N; subst. destruct (Nat.eqb a root); cbn; [constructor|]; auto.
    intros I. apply H1. apply in_map_iff in I as (e & E & I). apply filter_In in I as (I & _). apply in_map_iff. eauto. }
  assert (CK : forall n w c, dget (combine kids (seq n (length kids))) w = Some c -> In w kids /\ n <= c).
  { clear. induction kids as [|k ks IH]; intros n w c E; cbn in *; [discriminate|].
    destruct (Nat.eqb_spec w k) as [->|Q]; [injection E as <-; auto|]. apply IH in E. split; [tauto|lia]. }
  assert (CA : forall n w, In w kids -> exists c, dget (combine kids (seq n (length kids))) w = Some c).
  { clear. induction kids as [|k ks IH]; intros n w I; cbn in *; [tauto|].
    destruct (Nat.eqb_spec w k) as [->|Q]; [eauto|]. apply IH. destruct I; [congruence|auto]. }
  assert (CI : forall n w w', In w kids -> In w' kids -> dget (combine kids (seq n (length kids))) w = dget (combine kids (seq n (length kids))) w' -> w = w').
  { clear - KN. induction kids as [|k ks IH]; intros n w w' I I' E; cbn in *; [tauto|]. inversion KN; subst.
    assert (CK : forall n w c, dget (combine ks (seq n (length ks))) w = Some c -> n <= c).
    { clear. induction ks as [|k ks IH]; intros n w c E; cbn in *; [discriminate|].
      destruct (Nat.eqb_spec w k) as [->|Q]; [injection E as <-; auto|]. apply IH in E. lia. }
    destruct (Nat.eqb_spec w k) as [->|Q], (Nat.eqb_spec w' k) as [->|Q']; auto.
    - exfalso. symmetry in E. apply CK in E. lia.
    - exfalso. apply CK in E. lia.
    - apply (IH H2 (S n)); [destruct I; [congruence|auto]|destruct I'; [congruence|auto]|exact E]. }
  apply (cycle_loop_ok g root T (root :: map snd T) U BT set_order SO (length g) [root] kids _ (map snd T)).
  - reflexivity.
  - cbn. now rewrite app_nil_r.
  - discriminate.
  - constructor.
    + intros w c E. apply CK in E as (I & _). exists root. split; [cbn; auto|now apply successors_In].
    + intros p w [<-|[]] I. apply CA. now apply successors_In.
    + intros p w [<-|[]] Q. tauto.
    + intros w w' I I'. apply CI; now apply successors_In.
  - intros v w [<-|[]] Tv. apply (in_tree_order _ _ _ _ BT) in Tv. tauto.
  - cbn. lia.
Qed.
