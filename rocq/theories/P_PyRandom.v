(** * P_PyRandom: proofs about the random starting tours *)
From Verif Require Import Base P_Base M_Python Spec_Python P_Python P_PyHeur.
From Coq Require Import Permutation.
Open Scope nat_scope.

Lemma py_remove_ok l x : In x l -> exists r, py_remove l x = Ok r /\ Permutation l (x :: r) /\
  (forall y, In y r -> In y l).
Proof.
  induction l as [|y l IH]; cbn; [tauto|]. destruct (Nat.eqb_spec x y) as [->|Q].
  - exists l. split; [auto|]. split; [auto|]. auto.
  - intros [->|I]; [tauto|]. destruct (IH I) as (r & -> & P & S). cbn [bind]. exists (y :: r). split; [auto|].
    split.
    + apply perm_trans with (y :: x :: r); [now constructor|constructor].
    + cbn. intros z [->|J]; auto.
Qed.

Lemma py_choice_ok i l : l <> [] -> exists v, py_choice [i] l = Ok (v, []) /\ In v l.
Proof.
  intros N. destruct l as [|x l]; [tauto|]. unfold py_choice.
  destruct (nth_error (x :: l) (i mod length (x :: l))) as [v|] eqn:E.
  - exists v. split; [auto|]. now apply nth_error_In in E.
  - exfalso. apply nth_error_None in E. pose proof (Nat.mod_upper_bound i (length (x :: l)) ltac:(discriminate)). lia.
Qed.

(** What the loop returns. *)
Lemma random_tour_loop_ok pm quota root nodes : NoDup (map fst pm) -> NoDup nodes ->
  (forall v, In v nodes -> exists p, entry pm v p) ->
  forall rnd prize vs left,
  length left <= length rnd -> Permutation nodes ((root :: vs) ++ left) ->
  prizes_total pm (root :: vs) prize ->
  exists ws z, random_tour_loop pm quota prize (root :: vs) left rnd = Ok (root :: vs ++ ws) /\
    prizes_total pm (root :: vs ++ ws) z /\ NoDup (root :: vs ++ ws) /\
    (forall v, In v (root :: vs ++ ws) -> In v nodes) /\
    (Permutation nodes (root :: vs ++ ws) \/ ((quota <= z)%Z /\ 2 <= length (vs ++ ws))) /\
    (ws <> [] -> exists z', prizes_total pm (root :: removelast (vs ++ ws)) z' /\
       ((z' < quota)%Z \/ length (vs ++ ws) <= 2)).
Proof.
  intros NP NN HP. induction rnd as [|i rnd IH]; intros prize vs left L P S.
  - destruct left; [|cbn in L; lia]. cbn. exists [], prize. rewrite !app_nil_r in *. split; [auto|]. split; [auto|].
    split; [now apply (Permutation_NoDup P)|]. split; [intros v I; now apply (Permutation_in v (Permutation_sym P))|].
    split; [auto|]. tauto.
  - cbn [random_tour_loop].
    destruct (andb _ _) eqn:T.
    + apply andb_prop in T as (T1 & T2). apply Nat.ltb_lt in T1.
      destruct (py_choice_ok i left) as (v & E & I); [intros ->; cbn in T1; lia|].
      rewrite E. cbn [bind]. destruct (HP v) as (p & Hp).
      { apply (Permutation_in v (Permutation_sym P)). apply in_app_iff. auto. }
      rewrite (dget_some pm v p NP Hp).
      destruct (py_remove_ok left v I) as (left' & E' & P' & _). rewrite E'. cbn [bind].
      assert (S' : prizes_total pm (root :: vs ++ [v]) (prize + p)).
      { clear - S Hp. change (root :: vs ++ [v]) with ((root :: vs) ++ [v]). revert S. generalize (root :: vs). intros l S.
        induction S; cbn.
        - rewrite <- (Z.add_0_r p). replace (0 + (p + 0))%Z with (p + 0)%Z by lia. constructor; [auto|constructor].
        - rewrite <- Z.add_assoc. constructor; auto. }
      destruct (IH (prize + p)%Z (vs ++ [v]) left') as (ws & z & E2 & Z1 & N & In' & Q & _).
      * apply Permutation_length in P'. cbn in *. lia.
      * rewrite P, P'. cbn. rewrite <- app_assoc. cbn. reflexivity.
      * exact S'.
      * exists (v :: ws), z. rewrite <- app_assoc in *. cbn [app] in *.
        split; [exact E2|]. split; [exact Z1|]. split; [exact N|]. split; [exact In'|].
        split; [exact Q|]. intros _.
        (* the vertex before the last one was not enough *)
        destruct ws as [|w ws].
        -- exists prize. rewrite removelast_snoc. split; [exact S|].
           apply orb_prop in T2 as [T2|T2]; [left; now apply Z.ltb_lt|right]. apply Nat.ltb_lt in T2.
           cbn in T2. rewrite app_length. cbn. lia.
        -- destruct (IH (prize + p)%Z (vs ++ [v]) left') as (ws2 & z2 & E3 & _ & _ & _ & _ & Q2).
           ++ apply Permutation_length in P'. cbn in *. lia.
           ++ rewrite P, P'. cbn. rewrite <- app_assoc. cbn. reflexivity.
           ++ exact S'.
           ++ cbn [app] in E3. rewrite E2 in E3.
              assert (EQ : vs ++ v :: w :: ws = (vs ++ [v]) ++ ws2) by (injection E3; auto).
              rewrite EQ. apply Q2. intros ->. rewrite app_nil_r in EQ. apply app_inv_head in EQ. discriminate.
    + exists [], prize. rewrite !app_nil_r. split; [auto|]. split; [auto|].
      assert (N : NoDup (root :: vs)) by (apply (Permutation_NoDup P) in NN; now apply NoDup_app_iff in NN).
      split; [exact N|]. split.
      * intros v I. apply (Permutation_in v (Permutation_sym P)). apply in_app_iff. auto.
      * split; [|tauto]. destruct left as [|y left].
        -- left. now rewrite app_nil_r in P.
        -- right. cbn [length Nat.ltb andb] in T. change (true && ((prize <? quota)%Z || (length (root :: vs) <? 3)) = false) in T. cbn [andb] in T.
           apply orb_false_iff in T as (T1 & T2). apply Z.ltb_ge in T1. apply Nat.ltb_ge in T2. cbn in T2. lia.
Qed.

Lemma random_tour_ok pm quota root nodes rnd : NoDup (map fst pm) -> NoDup nodes ->
  (forall v, In v nodes -> exists p, entry pm v p) -> In root nodes -> length nodes <= S (length rnd) ->
  exists vs z, random_tour_complete_graph pm nodes root quota rnd = Ok (root :: vs ++ [root]) /\
    NoDup (root :: vs) /\ (forall v, In v (root :: vs) -> In v nodes) /\
    prizes_total pm (root :: vs) z /\
    (Permutation nodes (root :: vs) \/ ((quota <= z)%Z /\ 2 <= length vs)) /\
    (vs <> [] -> exists z', prizes_total pm (root :: removelast vs) z' /\
       ((z' < quota)%Z \/ length vs <= 2)).
Proof.
  intros NP NN HP IR L. unfold random_tour_complete_graph.
  destruct (HP root IR) as (p & Hp). rewrite (dget_some pm root p NP Hp).
  destruct (py_remove_ok nodes root IR) as (left & -> & P & _). cbn [bind].
  destruct (random_tour_loop_ok pm quota root nodes NP NN HP rnd p [] left) as (ws & z & E & Z1 & N & In' & Q & Q').
  - apply Permutation_length in P. cbn in P. lia.
  - exact P.
  - rewrite <- (Z.add_0_r p). constructor; [auto|constructor].
  - rewrite E. cbn [bind]. exists ws, z. split; [auto|]. split; [exact N|]. split; [exact In'|].
    split; [exact Z1|]. split; [exact Q|exact Q'].
Qed.

(** ** random_tour_from_disjoint_paths_map *)
Lemma random_pair_loop_stop paths choices v rnd : random_pair_loop paths choices v false rnd = Ok v.
Proof. destruct rnd; reflexivity. Qed.

(** Every way the function can return: an entry other than the root. *)
Lemma random_pair_loop_in paths rnd : forall choices v keep v', In v choices ->
  random_pair_loop paths choices v keep rnd = Ok v' -> In v' choices.
Proof.
  induction rnd as [|i rnd IH]; intros choices v keep v' I E; cbn [random_pair_loop] in E.
  - destruct keep; [|injection E as <-; auto].
    destruct (dget paths v) as [[f s]|]; [|discriminate].
    destruct (py_remove choices v) as [c| | |]; try discriminate. cbn [bind] in E.
    destruct c; discriminate.
  - destruct keep; [|injection E as <-; auto].
    destruct (dget paths v) as [[f s]|]; [|discriminate].
    destruct (py_remove_ok choices v I) as (c & Ec & P & S). rewrite Ec in E. cbn [bind] in E.
    destruct c as [|x c]; [discriminate|].
    destruct (py_choice_ok i (x :: c)) as (w & Ew & Iw); [discriminate|]. rewrite Ew in E. cbn [bind] in E.
    apply S. exact (IH _ _ _ _ Iw E).
Qed.

Lemma choices_ok (paths : list (nat * (list nat * list nat))) root : NoDup (map fst paths) ->
  exists choices, (if memb root (map fst paths) then py_remove (map fst paths) root else Ok (map fst paths)) = Ok choices /\
    NoDup choices /\ forall v, In v choices <-> In v (map fst paths) /\ v <> root.
Proof.
  intros N. destruct (memb root (map fst paths)) eqn:E.
  - apply memb_In in E. destruct (py_remove_ok _ _ E) as (r & -> & P & _). exists r. split; [auto|].
    pose proof (Permutation_NoDup P N) as N'. inversion N'; subst. split; [auto|].
    intros v. split.
    + intros I. split; [apply (Permutation_in v (Permutation_sym P)); cbn; auto|]. intros ->. auto.
    + intros (I & Q). apply (Permutation_in v P) in I. destruct I as [<-|I]; [tauto|auto].
  - apply memb_not_In in E. exists (map fst paths). split; [auto|]. split; [auto|].
    intros v. split; [|tauto]. intros I. split; [auto|]. intros ->. auto.
Qed.

(** With two or more usable pairs it returns the tour of one of them. *)
Lemma random_pair_ok paths root rnd : NoDup (map fst paths) ->
  (exists u v, u <> v /\ u <> root /\ v <> root /\ In u (map fst paths) /\ In v (map fst paths)) ->
  (forall v f s, entry paths v (f, s) -> v <> root ->
     exists tour, there_and_back f s tour /\ 5 <= length f + length s) ->
  2 <= length rnd ->
  exists tour, random_tour_from_disjoint_paths_map paths root rnd = Ok tour /\
    exists v f s, entry paths v (f, s) /\ v <> root /\ there_and_back f s tour.
Proof.
  intros N (u & v & Q & Qu & Qv & Iu & Iv) H L. unfold random_tour_from_disjoint_paths_map. cbv zeta.
  destruct (choices_ok paths root N) as (choices & -> & NC & HC). cbn [bind].
  assert (U : In u choices) by (apply HC; auto). assert (V : In v choices) by (apply HC; auto).
  pose proof (length_of_two choices u v Q U V) as LC.
  replace (length choices =? 0) with false by (symmetry; apply Nat.eqb_neq; lia).
  destruct rnd as [|i [|j rnd]]; cbn in L; try lia.
  assert (CH : exists w, py_choice (i :: j :: rnd) choices = Ok (w, j :: rnd) /\ In w choices).
  { destruct choices as [|c choices]; [destruct U|]. unfold py_choice.
    destruct (nth_error (c :: choices) (i mod length (c :: choices))) as [w|] eqn:E.
    - exists w. split; [auto|]. now apply nth_error_In in E.
    - exfalso. apply nth_error_None in E. pose proof (Nat.mod_upper_bound i (length (c :: choices)) ltac:(discriminate)). lia. }
  destruct CH as (w & -> & Iw). cbn [bind].
  cbn [random_pair_loop]. destruct (dget_key paths w) as ([f s] & Ew); [now apply HC|]. rewrite Ew.
  destruct (py_remove_ok choices w Iw) as (c' & -> & P & S). cbn [bind].
  destruct c' as [|x c']; [apply Permutation_length in P; cbn in P; lia|].
  destruct (py_choice_ok j (x :: c')) as (y & Ey & Iy); [discriminate|]. rewrite Ey. cbn [bind].
  destruct (H w f s) as (tw & _ & Lw); [now apply dget_In|now apply HC|].
  replace (length f + length s <? 5) with false by (symmetry; apply Nat.ltb_ge; lia).
  rewrite random_pair_loop_stop. cbn [bind].
  destruct (dget_key paths y) as ([f' s'] & E'); [now apply HC, S|]. rewrite E'.
  destruct (H y f' s') as (ty & Ty & _); [now apply dget_In|now apply HC, S|].
  exists ty. split; [now apply there_and_back_code|]. exists y, f', s'. split; [now apply dget_In|].
  split; [now apply HC, S|auto].
Qed.

(** Whatever it returns is the tour of an entry other than the root. *)
Lemma random_pair_result paths root rnd tour : NoDup (map fst paths) ->
  random_tour_from_disjoint_paths_map paths root rnd = Ok tour ->
  exists v f s, entry paths v (f, s) /\ v <> root /\ there_and_back f s tour.
Proof.
  intros N E. unfold random_tour_from_disjoint_paths_map in E. cbv zeta in E.
  destruct (choices_ok paths root N) as (choices & Ec & NC & HC). rewrite Ec in E. cbn [bind] in E.
  destruct (length choices =? 0); [discriminate|].
  destruct (py_choice rnd choices) as [[w rnd']| | |] eqn:Ew; try discriminate. cbn [bind] in E.
  assert (Iw : In w choices).
  { unfold py_choice in Ew. destruct choices as [|c cs]; [discriminate|]. destruct rnd as [|i r]; [discriminate|].
    destruct (nth_error (c :: cs) (i mod length (c :: cs))) eqn:En; [|discriminate]. injection Ew as <- <-.
    now apply nth_error_In in En. }
  destruct (random_pair_loop paths choices w true rnd') as [y| | |] eqn:Ey; try discriminate. cbn [bind] in E.
  pose proof (random_pair_loop_in _ _ _ _ _ _ Iw Ey) as Iy.
  destruct (dget paths y) as [[f s]|] eqn:Ed; [|discriminate].
  exists y, f, s. split; [now apply dget_In|]. split; [now apply HC|].
  destruct (tvdp_cases f s) as [(t & Et & s0 & t0 & F1 & F2 & L1 & L2)|(Et & _)]; [|congruence].
  destruct (tvdp_paths s0 t0 f s F1 F2 L1 L2) as (a & b & -> & -> & Ex).
  exists s0, t0, a, b. split; [auto|]. split; [auto|]. congruence.
Qed.

(** With a single usable pair it always fails. *)
Lemma random_pair_single paths root v rnd : NoDup (map fst paths) ->
  In v (map fst paths) -> (forall u, In u (map fst paths) -> u = v \/ u = root) -> v <> root ->
  rnd <> [] ->
  random_tour_from_disjoint_paths_map paths root rnd = Throw IndexErrorPy.
Proof.
  intros N HV H Q R. unfold random_tour_from_disjoint_paths_map. cbv zeta.
  destruct (choices_ok paths root N) as (choices & -> & NC & HC). cbn [bind].
  assert (EC : choices = [v]).
  { assert (I : In v choices) by (apply HC; auto).
    assert (A : forall u, In u choices -> u = v) by (intros u J; apply HC in J as (J & Qu); apply H in J; tauto).
    destruct choices as [|x [|y l]]; [destruct I| |].
    - f_equal. apply A. cbn; auto.
    - exfalso. inversion NC; subst. apply H2. rewrite (A x), (A y); cbn; auto. }
  subst choices. cbn [length Nat.eqb]. destruct rnd as [|i rnd]; [tauto|].
  cbn [py_choice length]. replace (i mod 1) with 0 by (symmetry; apply Nat.mod_1_r). cbn [nth_error bind].
  destruct (dget_key paths v) as ([f s] & E); [exact HV|].
  destruct rnd; cbn [random_pair_loop]; rewrite E; cbn [py_remove]; rewrite Nat.eqb_refl; cbn [bind]; reflexivity.
Qed.
