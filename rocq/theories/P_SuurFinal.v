(** * P_SuurFinal: Suurballe's algorithm on graphs with split vertices *)
From Coq Require Import Sorted.
From Verif Require Import Base P_Base M_Python M_PyCycle M_Suurballe Spec_Python Spec_Suurballe P_Python P_PyCycle P_Suurballe P_TreePath P_SuurState P_SuurLabel P_SuurLoop P_SuurInit P_SuurLower P_SuurExtract.
Open Scope nat_scope.

Section Back.
Variables (TT : stree) (st : sst) (G' : dgraph).
Notation T := (t_edges TT).
Notation root := (t_source TT).
Hypothesis RT : rooted_tree T root.
Variables (cst : nat * nat -> Z) (prd : nat -> nat).

Lemma bw_edges x M es M' : bw T root prd x M es M' -> forall e, In e es -> In e T \/ (In (snd e) M /\ e = (prd (snd e), snd e)).
Proof.
  induction 1 as [M|x M es M' NR I B IH|x p M es M' NR I TP B IH]; intros e J; [destruct J| |].
  - destruct J as [<-|J]; [right; auto|]. destruct (IH e J) as [A|(A & E)]; [auto|]. right. apply unmark_In in A. tauto.
  - destruct J as [<-|J]; [auto|]. apply IH. exact J.
Qed.

Lemma back_ok x M es M' : bw T root prd x M es M' ->
  (forall z, In z M -> dget (s_pred st) z = Some (Some (prd z))) -> (forall e, In e es -> arc G' (fst e) (snd e) (cst e)) ->
  forall fuel path v z, length es <= fuel -> dwalk G' x v (x :: path) z ->
  exists p, back_loop fuel TT st root x (x :: path) M = Ok (p, M') /\
    walk_edges p = rev es ++ walk_edges (x :: path) /\ dwalk G' root v p (zsum cst es + z)%Z.
Proof.
  induction 1 as [M|x M es M' NR I B IH|x p M es M' NR I TP B IH]; intros HP HA fuel path v z L W.
  - exists (root :: path). split; [destruct fuel; cbn [back_loop]; rewrite Nat.eqb_refl; reflexivity|]. split; [reflexivity|exact W].
  - destruct fuel as [|fuel]; [cbn in L; lia|]. cbn [back_loop]. destruct (Nat.eqb_spec x root) as [E|_]; [contradiction|].
    rewrite (proj2 (memb_In x M) I). unfold dfetch. rewrite (HP x I). cbn [bind]. fold (unmark x M).
    destruct (IH) with (fuel := fuel) (path := x :: path) (v := v) (z := (cst (prd x, x) + z)%Z) as (p & E & WE & DW).
    + intros y J. apply HP. apply unmark_In in J. tauto.
    + intros e J. apply HA. right. exact J.
    + cbn in L. lia.
    + apply (dw_cons G' (prd x) x v); [apply (HA (prd x, x)); left; reflexivity|exact W].
    + exists p. split; [exact E|]. split.
      * rewrite WE. cbn [rev walk_edges]. rewrite <- app_assoc. reflexivity.
      * cbn [zsum]. replace (cst (prd x, x) + zsum cst es + z)%Z with (zsum cst es + (cst (prd x, x) + z))%Z by lia. exact DW.
  - destruct fuel as [|fuel]; [cbn in L; lia|]. cbn [back_loop]. destruct (Nat.eqb_spec x root) as [E|_]; [contradiction|].
    rewrite (proj2 (memb_not_In x M) I). destruct (predecessors_ok T root x p RT TP) as (r & ->).
    destruct (IH) with (fuel := fuel) (path := x :: path) (v := v) (z := (cst (p, x) + z)%Z) as (q & E & WE & DW).
    + exact HP.
    + intros e J. apply HA. right. exact J.
    + cbn in L. lia.
    + apply (dw_cons G' p x v); [apply (HA (p, x)); left; reflexivity|exact W].
    + exists q. split; [exact E|]. split.
      * rewrite WE. cbn [rev walk_edges]. rewrite <- app_assoc. reflexivity.
      * cbn [zsum]. replace (cst (p, x) + zsum cst es + z)%Z with (zsum cst es + (cst (p, x) + z))%Z by lia. exact DW.
Qed.
End Back.

Lemma mark_ok (st : sst) root (rk cau : nat -> nat) (lab : nat -> Prop) :
  (forall w, lab w -> w <> root -> dget (s_cause st) w = Some (Some (cau w)) /\ lab (cau w) /\ rk (cau w) < rk w) ->
  forall fuel x mark, lab x -> rk x <= fuel ->
  exists M, mark_loop fuel st root x mark = Ok M /\ forall z, In z M <-> In z mark \/ inch root cau x z.
Proof.
  intros HC. induction fuel as [|fuel IH]; intros x mark LX L.
  - cbn [mark_loop]. destruct (Nat.eqb_spec x root) as [->|N].
    + exists mark. split; [reflexivity|]. intros z. split; [auto|]. intros [I|I]; [exact I|]. inversion I; congruence.
    + destruct (HC x LX N) as (_ & _ & R). lia.
  - cbn [mark_loop]. destruct (Nat.eqb_spec x root) as [->|N].
    + exists mark. split; [reflexivity|]. intros z. split; [auto|]. intros [I|I]; [exact I|]. inversion I; congruence.
    + destruct (HC x LX N) as (E & LC & R). unfold dfetch. rewrite E. cbn [bind].
      destruct (Nat.eqb_spec x (cau x)) as [Q|_]; [rewrite <- Q in R; lia|].
      destruct (IH (cau x) (if memb x mark then mark else x :: mark) LC) as (M & EM & HM); [lia|].
      exists M. split; [exact EM|]. intros z. rewrite HM.
      assert (MK : In z (if memb x mark then mark else x :: mark) <-> In z mark \/ z = x).
      { destruct (memb x mark) eqn:B.
        - apply memb_In in B. split; [auto|]. intros [H| ->]; auto.
        - cbn. intuition. }
      rewrite MK. split.
      * intros [[H| ->]|H]; [auto|right; constructor; exact N|right; apply inch_up; assumption].
      * intros [H|H]; [auto|]. inversion H; subst; auto.
Qed.

Lemma find_pos_first ord P m : NoDup ord -> first ord P m -> forall z, P z -> find_pos m ord <= find_pos z ord.
Proof.
  intros ND (l1 & l2 & -> & _ & H) z PZ. destruct (Nat.le_gt_cases (find_pos m (l1 ++ m :: l2)) (find_pos z (l1 ++ m :: l2))) as [L|L]; [exact L|].
  exfalso. apply NoDup_remove_2 in ND. rewrite in_app_iff in ND.
  rewrite (find_pos_app_notin m l1) in L by tauto. cbn in L. rewrite Nat.eqb_refl in L.
  assert (NZ : ~ In z l1) by (intros I; apply (H z I PZ)). rewrite (find_pos_app_notin z l1) in L by exact NZ. lia.
Qed.

Lemma find_pos_inj x y l : In x l -> In y l -> find_pos x l = find_pos y l -> x = y.
Proof.
  induction l as [|a l IH]; intros I J E; [destruct I|]. cbn in E. destruct (Nat.eqb_spec a x) as [EX|NX]; destruct (Nat.eqb_spec a y) as [EY|NY]; try congruence; try lia.
  destruct I as [I|I]; [congruence|]. destruct J as [J|J]; [congruence|]. apply IH; auto.
Qed.

(** The whole algorithm. *)
Lemma suurballe_ok depth G s dist paths : directed G -> (forall u w, ~ arc G u u w) -> In s (map fst G) -> split_like G s ->
  shortest_distances G s dist -> shortest_paths G s dist paths -> paths_within depth paths ->
  exists TT st ord, suurballe_shortest_vertex_disjoint_paths depth G s dist paths = Ok (TT, st) /\
    t_source TT = s /\ t_dist TT = dist /\ (forall v, In v (t_nodes TT) -> In v (map fst dist)) /\
    (forall v, In v (map fst dist) -> In v (t_nodes TT) /\ dget (s_lab st) v = Some (memb v ord)) /\
    In s ord /\
    (forall t, In t (map fst dist) -> exists w a, entry dist t w /\ dget (s_td st) t = Some a /\
      (In t ord <-> (a < py_maxsize)%Z) /\ (a <= py_maxsize)%Z /\
      (forall p q z, disjoint_pair G s t p q z -> (2 * w + a <= z)%Z) /\
      (In t ord -> t <> s -> exists p q, extract_suurballe_edge_disjoint_paths TT st s t = Ok (p, q) /\
         disjoint_pair G s t p q (2 * w + a)%Z)).
Proof.
  intros DG NL SG SPL SD SP DEP.
  destruct (suurballe_init_ok depth G s dist paths DG NL SG SPL SD SP DEP)
    as (TT & st0 & pre & post & R0 & G' & EI & ENV & INV0 & LEN & ES & ED & EG & RE & CF & TARC & R0F).
  destruct ENV as [RT PRE POST ANC PINJ NODES R0ok CNN SPLIT].
  destruct (main_loop_ok TT RT pre post PRE POST ANC PINJ NODES R0 R0ok CNN SPLIT _ st0 R0 [] INV0 LEN) as (st & R' & ord & EM & IV & HE).
  destruct (adjusted_ok G s dist DG SD) as (G'' & EG' & _ & PO). assert (G'' = G') by congruence. subst G''.
  assert (ND : NoDup (map fst dist)) by apply SD.
  rewrite ES in *. destruct IV as [RP FO SUB NDO OR HEAD TROOT RANGE LOW SORT NEXT HEAP ENTRY PROC LEFT DONE CAUSE]. rewrite ES in *.
  (* the root is labelled *)
  assert (MAX : (0 < py_maxsize)%Z) by (vm_compute; reflexivity).
  assert (UNL : forall x, descends (t_edges TT) s x -> ~ In x ord -> tdv st x = py_maxsize).
  { intros x RX NX. pose proof (RANGE x RX). destruct (Z.lt_ge_cases (tdv st x) py_maxsize) as [L|L]; [|lia].
    pose proof (HEAP x RX NX L) as I. rewrite HE in I. destruct I. }
  assert (SO : In s ord).
  { destruct (in_dec Nat.eq_dec s ord) as [I|N]; [exact I|]. pose proof (UNL s (desc_refl _ _) N). lia. }
  assert (HD : exists o, ord = s :: o) by (destruct HEAD as [E|E]; [rewrite E in SO; destruct SO|exact E]).
  (* abbreviations *)
  set (rk := fun x => find_pos x ord).
  set (cst := fun e : nat * nat => match dget (t_cost TT) (fst e) with Some row => match dget row (snd e) with Some c => c | None => 0%Z end | None => 0%Z end).
  set (prd := fun x => match dget (s_pred st) x with Some (Some u) => u | _ => 0 end).
  set (cau := fun x => match dget (s_cause st) x with Some (Some u) => u | _ => 0 end).
  assert (CC : forall u w c, C TT u w c -> cst (u, w) = c).
  { intros u w c (row & A & B). unfold cst. cbn. rewrite A, B. reflexivity. }
  assert (CT : forall e, In e (t_edges TT) -> arc G' (fst e) (snd e) (cst e) /\ cst e = 0%Z).
  { intros (u, w) I. pose proof (TARC u w I) as A. apply CF in A. pose proof (CC _ _ _ A) as E. rewrite E. split; [|reflexivity].
    cbn. apply CF. exact A. }
  assert (CAU : forall w, In w ord -> w <> s -> dget (s_pred st) w = Some (Some (prd w)) /\ dget (s_cause st) w = Some (Some (cau w)) /\
     In (prd w, w) R0 /\ C TT (prd w) w (cst (prd w, w)) /\ In (cau w) ord /\ onpath (t_edges TT) (cau w) (prd w) w /\
     (forall z, onpath (t_edges TT) z (prd w) w -> rk (cau w) <= rk z) /\ rk (cau w) < rk w /\ tdv st w = (tdv st (cau w) + cst (prd w, w))%Z).
  { intros w I N. destruct (CAUSE w (OR w I) N (LOW w I)) as (u & m & c & A1 & A2 & A3 & A4 & A5 & A6 & A7).
    assert (E1 : prd w = u) by (unfold prd; rewrite A1; reflexivity). assert (E2 : cau w = m) by (unfold cau; rewrite A2; reflexivity).
    rewrite E1, E2, (CC _ _ _ A4). destruct (first_In _ _ _ A5) as (A8 & A9).
    split; [exact A1|]. split; [exact A2|]. split; [exact A3|]. split; [exact A4|]. split; [exact A8|]. split; [exact A9|].
    pose proof (find_pos_first ord _ m NDO A5) as FP. split; [exact FP|]. split; [|exact A7].
    assert (rk m <= rk w) by (apply FP; apply onpath_r). assert (rk m <> rk w) by (intros Q; apply A6; apply (find_pos_inj m w ord A8 I Q)). lia. }
  exists TT, st, ord. split.
  { unfold suurballe_shortest_vertex_disjoint_paths. rewrite EI. cbn [bind]. rewrite EM. reflexivity. }
  split; [exact ES|]. split; [exact ED|]. split.
  { assert (NN : t_nodes TT = tree_nodes (t_edges TT) (t_dist TT)).
    { unfold suurballe_init in EI. cbv zeta in EI. apply bind_ok in EI. destruct EI as (T0 & _ & EI). apply bind_ok in EI. destruct EI as (c0 & _ & EI).
      apply bind_ok in EI. destruct EI as ((o1 & p1) & _ & EI). apply bind_ok in EI. destruct EI as ((o2 & p2) & _ & EI).
      apply bind_ok in EI. destruct EI as (i0 & _ & EI). apply bind_ok in EI. destruct EI as (par & _ & EI). injection EI as <- _. reflexivity. }
    intros v I. rewrite NN in I. apply tree_nodes_ok in I. rewrite ED in I. destruct I as [((a & b) & I & J)|I]; [|exact I].
    destruct (tree_reach _ _ RT a b I) as (Ra & Rb). apply RE. destruct J as [-> | ->]; assumption. }
  split.
  { intros v I. apply RE in I. split; [apply NODES; exact I|].
    apply (f_lab _ _ _ FO). rewrite ES. exact I. }
  split; [exact SO|]. intros t It. assert (RTt : descends (t_edges TT) s t) by (apply RE; exact It).
  destruct (dist_entry _ _ It) as (w & W). exists w, (tdv st t). split; [exact W|].
  assert (TD : dget (s_td st) t = Some (tdv st t)) by (apply (td_tdv TT pre _ _ t RP); rewrite ES; exact RTt).
  split; [exact TD|]. split.
  { split; [apply LOW|]. intros L. destruct (in_dec Nat.eq_dec t ord) as [I|N]; [exact I|]. rewrite (UNL t RTt N) in L. lia. }
  split; [apply RANGE; exact RTt|].
  assert (ES0 : entry dist s 0%Z) by apply SD.
  assert (CONV : forall p z, dwalk G s t p z <-> dwalk G' s t p (z - w)%Z).
  { intros p z. rewrite (potential_walk G s dist G' SD PO s t p 0%Z w ES0 W z). replace (z + 0 - w)%Z with (z - w)%Z by lia. reflexivity. }
  split.
  - intros p q z (DJ & N1 & N2 & z1 & z2 & W1 & W2 & ->).
    assert (LB : (tdv st t <= (z1 - w) + (z2 - w))%Z); [|lia].
    apply (lower_bound (t_edges TT) s G' R0) with (ord := ord) (big := py_maxsize) (t := t) (p := p) (q := q).
    + exact RT.
    + intros u v c A I. apply CF in A. pose proof (TARC u v I) as A'. apply CF in A'. apply (C_fun _ _ _ _ _ A A').
    + intros u v c A. destruct (in_dec (fun a b => Bool.reflect_dec _ _ (Bool.iff_reflect _ _ (iff_sym (eqe_ok a b)))) (u, v) (t_edges TT)) as [I|N]; [left; exact I|].
      right. apply R0F. split; [exists c; exact A|exact N].
    + intros u v I. pose proof (R0ok _ I) as Q. exact Q.
    + exact OR.
    + exact TROOT.
    + exact RANGE.
    + exact UNL.
    + exact SORT.
    + intros u v c I A. apply (CNN u v c I). apply CF. exact A.
    + intros u v c m I A F. apply (DONE u v c m I); [apply CF; exact A|exact F].
    + exact RTt.
    + split; [exact DJ|]. split; [exact N1|]. split; [exact N2|]. exists (z1 - w)%Z, (z2 - w)%Z.
      split; [apply CONV; exact W1|]. split; [apply CONV; exact W2|reflexivity].
  - intros It' NT.
    assert (RTs : rooted_tree (t_edges TT) s) by exact RT.
    assert (RKS : rk s = 0). { destruct HD as (o & ->). unfold rk. cbn. rewrite Nat.eqb_refl. reflexivity. }
    assert (CAU2 : forall v, In v ord -> v <> s -> In (cau v) ord /\ ~ In (prd v, v) (t_edges TT) /\ descends (t_edges TT) s (prd v) /\
      onpath (t_edges TT) (cau v) (prd v) v /\ (forall z, onpath (t_edges TT) z (prd v) v -> rk (cau v) <= rk z) /\
      rk (cau v) < rk v /\ tdv st v = (tdv st (cau v) + cst (prd v, v))%Z).
    { intros v I N. destruct (CAU v I N) as (_ & _ & A3 & _ & A5 & A6 & A7 & A8 & A9). split; [exact A5|].
      pose proof (R0ok _ A3) as (Ru & _). apply R0F in A3. destruct A3 as (_ & A3). repeat (split; [assumption|]). assumption. }
    assert (LN : rk t <= length (t_nodes TT)).
    { assert (L1 : rk t < length ord) by (apply find_pos_In; exact It').
      assert (L2 : length ord <= length (t_nodes TT)); [|lia]. apply NoDup_incl_length; [exact NDO|].
      intros x I. apply NODES. apply OR. exact I. }
    destruct (mark_ok st s rk cau (fun x => In x ord)) with (fuel := S (length (t_nodes TT))) (x := t) (mark := @nil nat) as (M & EMK & HM).
    { intros v I N. destruct (CAU v I N) as (_ & A & _ & _ & B & _ & _ & D & _). auto. }
    { exact It'. }
    { lia. }
    assert (HM1 : forall x, In x M <-> inch s cau t x) by (intros x; rewrite HM; cbn; tauto).
    destruct (two_walks (t_edges TT) s RTs cst rk (fun x => In x ord) (tdv st) prd cau) with (t := t) (M := M)
      as (e1 & M1 & e2 & M2 & B1 & B2 & NDE & ZS).
    { intros e I. apply CT. exact I. }
    { exact OR. }
    { exact TROOT. }
    { exact RKS. }
    { exact CAU2. }
    { exact It'. }
    { exact NT. }
    { exact HM1. }
    assert (ML : forall x, In x M -> In x ord /\ x <> s).
    { intros x I. apply HM1 in I. destruct (inch_rk (t_edges TT) s cst rk (fun x => In x ord) (tdv st) prd cau) with (m := t) (x := x) as (A & B & _); auto. }
    pose proof (bw_incl _ _ _ _ _ _ _ B1) as I1.
    assert (EA : forall e, In e e1 \/ In e e2 -> In e (t_edges TT) \/ (In (snd e) M /\ e = (prd (snd e), snd e))).
    { rewrite <- ES in B1, B2. intros e [I|I]; [apply (bw_edges TT cst prd _ _ _ _ B1 e I)|].
      destruct (bw_edges TT cst prd _ _ _ _ B2 e I) as [A|(A & B)]; [auto|]. right. split; [apply I1; exact A|exact B]. }
    assert (HA : forall e, In e e1 \/ In e e2 -> arc G' (fst e) (snd e) (cst e)).
    { intros e I. destruct (EA e I) as [A|(A & B)]; [apply CT; exact A|]. destruct (ML _ A) as (A1 & A2).
      destruct (CAU _ A1 A2) as (_ & _ & _ & A4 & _). rewrite B. cbn [fst snd]. apply CF. exact A4. }
    assert (HP : forall z, In z M -> dget (s_pred st) z = Some (Some (prd z))).
    { intros z I. destruct (ML z I) as (A1 & A2). apply (CAU z A1 A2). }
    set (n := S (length (t_nodes TT))).
    assert (LT : length (t_edges TT) <= length (t_nodes TT)).
    { rewrite <- (map_length snd (t_edges TT)). apply NoDup_incl_length; [apply RT|]. intros x I. apply in_map_iff in I.
      destruct I as ((a & b) & <- & I). apply NODES. apply (tree_reach _ _ RT a b I). }
    assert (FU : forall es, NoDup es -> (forall e, In e es -> In e e1 \/ In e e2) -> length es <= n * n).
    { intros es NE HE'. assert (L : length es <= length (t_edges TT ++ map (fun z => (prd z, z)) (t_nodes TT))).
      { apply NoDup_incl_length; [exact NE|]. intros e I. apply in_app_iff. destruct (EA e (HE' e I)) as [A|(A & B)]; [left; exact A|].
        right. apply in_map_iff. exists (snd e). split; [symmetry; exact B|]. apply NODES. apply OR. apply (ML _ A). }
      rewrite app_length, map_length in L. unfold n. cbn. lia. }
    assert (RT' : rooted_tree (t_edges TT) (t_source TT)) by (rewrite ES; exact RT).
    apply NoDup_app_iff in NDE. destruct NDE as (N1 & N2 & DJ).
    destruct (back_ok TT st G' RT' cst prd t M e1 M1) with (fuel := n * n) (path := @nil nat) (v := t) (z := 0%Z) as (p & E1 & W1 & D1).
    { rewrite ES. exact B1. } { exact HP. } { auto. } { apply FU; auto. } { constructor. }
    destruct (back_ok TT st G' RT' cst prd t M1 e2 M2) with (fuel := n * n) (path := @nil nat) (v := t) (z := 0%Z) as (q & E2 & W2 & D2).
    { rewrite ES. exact B2. } { intros z I. apply HP. apply I1. exact I. } { auto. } { apply FU; auto. } { constructor. }
    rewrite ES in *. cbn [walk_edges] in W1, W2. rewrite app_nil_r in W1, W2.
    exists p, q. split.
    + unfold extract_suurballe_edge_disjoint_paths. destruct (Nat.eqb_spec s t) as [Q|_]; [congruence|].
      unfold dfetch at 1. rewrite TD. cbn [bind]. destruct (Z.eqb_spec (tdv st t) py_maxsize) as [Q|_]; [pose proof (LOW t It'); lia|].
      cbv zeta. fold n in EMK |- *. rewrite EMK. cbn [bind]. rewrite E1. cbn [bind]. rewrite E2. reflexivity.
    + split; [|split; [|split]].
      * intros e. rewrite W1, W2, <- !in_rev. intros I J. apply (DJ e I J).
      * rewrite W1. apply NoDup_rev. exact N1.
      * rewrite W2. apply NoDup_rev. exact N2.
      * exists (zsum cst e1 + w)%Z, (zsum cst e2 + w)%Z. rewrite zsum_app in ZS. split; [apply CONV|split; [apply CONV|lia]].
        -- replace (zsum cst e1 + w - w)%Z with (zsum cst e1 + 0)%Z by lia. exact D1.
        -- replace (zsum cst e2 + w - w)%Z with (zsum cst e2 + 0)%Z by lia. exact D2.
Qed.

(** A check of [split_like] on a finite graph. *)
Definition split_likeb (G : dgraph) (s : nat) : bool :=
  forallb (fun e1 => forallb (fun e2 => forallb (fun e3 => forallb (fun e4 =>
    Nat.eqb (snd e1) s || Nat.eqb (fst e1) (fst e2) || negb (Nat.eqb (snd e1) (snd e2)) ||
    negb (Nat.eqb (fst e3) (snd e1)) || negb (Nat.eqb (snd e4) (snd e3)) || Nat.eqb (fst e4) (snd e1))
    (dedges G)) (dedges G)) (dedges G)) (dedges G).

Lemma split_likeb_ok G s : split_likeb G s = true -> split_like G s.
Proof.
  intros H v x u1 u2 u3 w1 w2 w3 w4 NV NU A1 A2 A3 A4. unfold split_likeb in H.
  assert (I1 : In (u1, v) (dedges G)) by (apply dedges_In; eauto). assert (I2 : In (u2, v) (dedges G)) by (apply dedges_In; eauto).
  assert (I3 : In (v, x) (dedges G)) by (apply dedges_In; eauto). assert (I4 : In (u3, x) (dedges G)) by (apply dedges_In; eauto).
  rewrite forallb_forall in H. specialize (H _ I1). rewrite forallb_forall in H. specialize (H _ I2).
  rewrite forallb_forall in H. specialize (H _ I3). rewrite forallb_forall in H. specialize (H _ I4). cbn [fst snd] in H.
  rewrite !Nat.eqb_refl in H. cbn [negb orb] in H. rewrite !orb_false_r, !orb_true_iff, !Nat.eqb_eq in H.
  destruct H as [[H|H]|H]; congruence.
Qed.

Lemma suurballe_pairs depth G s dist paths : directed G -> (forall u w, ~ arc G u u w) -> In s (map fst G) -> split_like G s ->
  shortest_distances G s dist -> shortest_paths G s dist paths -> paths_within depth paths ->
  exists TT st, suurballe_shortest_vertex_disjoint_paths depth G s dist paths = Ok (TT, st) /\
    forall t w, entry dist t w -> t <> s ->
      (exists p q z, extract_suurballe_edge_disjoint_paths TT st s t = Ok (p, q) /\ edge_disjoint_path_cost TT st t = Ok z /\
         disjoint_pair G s t p q z /\ forall p' q' z', disjoint_pair G s t p' q' z' -> (z <= z')%Z) \/
      (extract_suurballe_edge_disjoint_paths TT st s t = Ok ([], []) /\ edge_disjoint_path_cost TT st t = Ok py_maxsize /\
         forall p q z, disjoint_pair G s t p q z -> (2 * w + py_maxsize <= z)%Z).
Proof.
  intros DG NL SG SPL SD SP DEP.
  destruct (suurballe_ok depth G s dist paths DG NL SG SPL SD SP DEP) as (TT & st & ord & E & ES & ED & _ & _ & SO & H).
  exists TT, st. split; [exact E|]. intros t w W NT.
  assert (It : In t (map fst dist)) by (apply in_map_iff; exists (t, w); auto).
  destruct (H t It) as (w' & a & W' & TD & LA & MX & LB & EX).
  assert (w' = w) by (apply (entry_unique dist t w' w); [apply SD|exact W'|exact W]). subst w'.
  assert (DW : dget dist t = Some w) by (apply dget_some; [apply SD|exact W]).
  destruct (in_dec Nat.eq_dec t ord) as [I|N].
  - left. destruct (EX I NT) as (p & q & EE & DP). exists p, q, (2 * w + a)%Z. split; [exact EE|]. split.
    + unfold edge_disjoint_path_cost, dfetch. rewrite TD. cbn [bind]. apply LA in I. destruct (Z.eqb_spec a py_maxsize); [lia|].
      rewrite ED, DW. reflexivity.
    + split; [exact DP|exact LB].
  - right. assert (a = py_maxsize) by (destruct (Z.lt_ge_cases a py_maxsize) as [L|L]; [apply LA in L; contradiction|lia]). subst a.
    unfold extract_suurballe_edge_disjoint_paths, edge_disjoint_path_cost, dfetch. rewrite TD. cbn [bind]. rewrite Z.eqb_refl.
    destruct (Nat.eqb_spec s t) as [Q|_]; [congruence|]. split; [reflexivity|]. split; [reflexivity|exact LB].
Qed.
