(** * P_Check: boolean checkers for the specification predicates, used to discharge the
    hypotheses of concrete cases by computation. *)
From Verif Require Import Base Graph Spec P_Base.

Definition edgeb (g : graph) (u v : nat) : bool :=
  match find_edge (ge g) 0 u v with Some _ => true | None => false end.

Lemma edgeb_spec g u v : edgeb g u v = true <-> is_edge g u v.
Proof.
  unfold edgeb. destruct (find_edge (ge g) 0 u v) as [e|] eqn:E.
  - split; auto. intros _. apply find_edge_Some in E as (_ & Hp & _).
    rewrite Nat.sub_0_r in Hp. exists e. now apply joins_joinsb.
  - split; [discriminate|]. intros [e He]. apply joins_joinsb in He as (p & H1 & H2).
    pose proof (find_edge_None _ _ _ _ E e p H1). congruence.
Qed.

Fixpoint walkb (g : graph) (w : list nat) : bool :=
  match w with
  | [] => true
  | u :: w' => match w' with [] => true | v :: _ => edgeb g u v && walkb g w' end
  end.

Lemma walkb_spec g w : walkb g w = true <-> is_walk g w.
Proof.
  induction w as [|u w IH]; [split; auto; constructor|].
  destruct w as [|v w]; [split; auto; constructor|].
  cbn [walkb]. rewrite andb_true_iff, IH, edgeb_spec. split.
  - intros [H1 H2]. now constructor.
  - intros H. now apply is_walk_inv2 in H.
Qed.

Fixpoint nodupb (l : list nat) : bool :=
  match l with [] => true | x :: t => negb (memb x t) && nodupb t end.

Lemma nodupb_spec l : nodupb l = true <-> NoDup l.
Proof.
  induction l as [|x t IH]; simpl; [split; auto; constructor|].
  rewrite andb_true_iff, negb_true_iff, IH. split.
  - intros [H1 H2]. constructor; auto. intros H. apply memb_In in H. congruence.
  - intros H; inversion H; subst. split; auto. destruct (memb x t) eqn:E; auto.
    apply memb_In in E. contradiction.
Qed.

Definition listb (a b : list nat) : bool := if list_eq_dec Nat.eq_dec a b then true else false.

Lemma listb_spec a b : listb a b = true <-> a = b.
Proof. unfold listb. destruct (list_eq_dec Nat.eq_dec a b); split; congruence. Qed.

Definition tourb (g : graph) (r : nat) (t : list nat) : bool :=
  let vs := removelast (tl t) in
  listb t (r :: vs ++ [r]) && nodupb (r :: vs) && (2 <=? length vs) && walkb g t &&
  forallb (fun v => v <? gn g) t.

Lemma tourb_spec g r t : tourb g r t = true <-> tour_from g r t.
Proof.
  unfold tourb. rewrite !andb_true_iff, listb_spec, nodupb_spec, Nat.leb_le, walkb_spec, forallb_forall.
  split.
  - intros ((((H1 & H2) & H3) & H4) & H5). exists (removelast (tl t)).
    repeat split; auto. apply Forall_forall. intros v Hv. apply Nat.ltb_lt. auto.
  - intros (vs & E & H2 & H3 & H4 & H5).
    assert (Ev : removelast (tl t) = vs) by (rewrite E; cbn [tl]; apply removelast_snoc).
    rewrite Ev. repeat split; auto. intros v Hv. apply Nat.ltb_lt.
    rewrite Forall_forall in H5. auto.
Qed.

Definition closedb (g : graph) (r m : nat) (t : list nat) : bool :=
  let vs := removelast (tl t) in
  listb t (r :: vs ++ [r]) && nodupb (r :: vs) && (m <=? length vs) && walkb g t &&
  forallb (fun v => v <? gn g) t.

Lemma closedb_spec g r m t : closedb g r m t = true <-> closed_tour g r m t.
Proof.
  unfold closedb. rewrite !andb_true_iff, listb_spec, nodupb_spec, Nat.leb_le, walkb_spec, forallb_forall.
  split.
  - intros ((((H1 & H2) & H3) & H4) & H5). exists (removelast (tl t)).
    repeat split; auto. apply Forall_forall. intros v Hv. apply Nat.ltb_lt. auto.
  - intros (vs & E & H2 & H3 & H4 & H5).
    assert (Ev : removelast (tl t) = vs) by (rewrite E; cbn [tl]; apply removelast_snoc).
    rewrite Ev. repeat split; auto. intros v Hv. apply Nat.ltb_lt.
    rewrite Forall_forall in H5. auto.
Qed.

Fixpoint costb (g : graph) (c : list Z) (w : list nat) : option Z :=
  match w with
  | [] => Some 0%Z
  | u :: w' =>
      match w' with
      | [] => Some 0%Z
      | v :: _ =>
          match find_edge (ge g) 0 u v with
          | None => None
          | Some e => match nth_error c e, costb g c w' with
                      | Some x, Some z => Some (x + z)%Z
                      | _, _ => None
                      end
          end
      end
  end.

Lemma find_edge_step g u v e : find_edge (ge g) 0 u v = Some e <-> step_edge g u v e.
Proof.
  assert (H : forall e', find_edge (ge g) 0 u v = Some e' -> step_edge g u v e').
  { intros e' E. apply find_edge_Some in E as (_ & Hp & Hm). rewrite Nat.sub_0_r in Hp. split.
    - now apply joins_joinsb.
    - intros f Hf. apply joins_joinsb in Hf as (q & H1 & H2).
      specialize (Hm f q H1 H2). lia. }
  split; auto. intros Hs.
  destruct (find_edge (ge g) 0 u v) as [e'|] eqn:E.
  - specialize (H e' eq_refl). destruct H as [H1 H2], Hs as [H3 H4].
    f_equal. apply Nat.le_antisymm; auto.
  - destruct Hs as [Hj _]. apply joins_joinsb in Hj as (q & H1 & H2).
    pose proof (find_edge_None _ _ _ _ E e q H1). congruence.
Qed.

Lemma costb_cons g c u v w : costb g c (u :: v :: w) =
  match find_edge (ge g) 0 u v with
  | None => None
  | Some e => match nth_error c e, costb g c (v :: w) with
              | Some x, Some z => Some (x + z)%Z
              | _, _ => None
              end
  end.
Proof. reflexivity. Qed.

Lemma costb_spec g c w z : costb g c w = Some z <-> walk_cost g c w z.
Proof.
  revert z. induction w as [|u w IH]; intros z.
  - simpl. split; intros H; inversion H; constructor.
  - destruct w as [|v w].
    + simpl. split; intros H; inversion H; constructor.
    + rewrite costb_cons. split.
      * intros H. destruct (find_edge (ge g) 0 u v) as [e|] eqn:E; [|discriminate].
        destruct (nth_error c e) as [x|] eqn:Ex; [|discriminate].
        destruct (costb g c (v :: w)) as [y|] eqn:Ey; [|discriminate].
        inversion H; subst. econstructor; eauto. { now apply find_edge_step. } { now apply IH. }
      * intros H. apply walk_cost_inv2 in H as (e & x & y & H1 & H2 & H3 & ->).
        apply find_edge_step in H1. rewrite H1, H2.
        apply IH in H3. now rewrite H3.
Qed.

Fixpoint prizeb (p : list Z) (l : list nat) : option Z :=
  match l with
  | [] => Some 0%Z
  | v :: t => match nth_error p v, prizeb p t with
              | Some x, Some z => Some (x + z)%Z
              | _, _ => None
              end
  end.

Lemma prizeb_spec p l z : prizeb p l = Some z <-> prize_sum p l z.
Proof.
  revert z. induction l as [|v t IH]; intros z; cbn [prizeb].
  - split; intros H; inversion H; constructor.
  - split.
    + intros H. destruct (nth_error p v) eqn:E; [|discriminate].
      destruct (prizeb p t) eqn:E'; [|discriminate]. inversion H; subst.
      constructor; auto. now apply IH.
    + intros H. apply prize_sum_cons_inv in H as (x & y & H1 & H2 & ->).
      rewrite H1. apply IH in H2. now rewrite H2.
Qed.

Definition graph_okb (g : graph) : bool :=
  forallb (fun e => (fst e <? gn g) && (snd e <? gn g)) (ge g).

Lemma graph_okb_spec g : graph_okb g = true <-> graph_ok g.
Proof.
  unfold graph_okb, graph_ok. rewrite forallb_forall. split.
  - intros H a b Hin. specialize (H _ Hin). apply andb_true_iff in H as [H1 H2].
    apply Nat.ltb_lt in H1. apply Nat.ltb_lt in H2. auto.
  - intros H [a b] Hin. destruct (H _ _ Hin). apply andb_true_iff. simpl.
    split; apply Nat.ltb_lt; auto.
Qed.

Definition withinb (c : list Z) (n : nat) (lo hi : Z) : bool :=
  (length c =? n) && forallb (fun x => (lo <=? x) && (x <=? hi))%Z c.

Lemma withinb_spec c n lo hi : withinb c n lo hi = true <->
  length c = n /\ Forall (fun x => lo <= x <= hi)%Z c.
Proof.
  unfold withinb. rewrite andb_true_iff, Nat.eqb_eq, forallb_forall, Forall_forall.
  split; intros [H1 H2]; split; auto; intros x Hx; specialize (H2 x Hx); lia.
Qed.

Lemma costs_withinb g c lo hi : withinb c (length (ge g)) lo hi = true <-> costs_within g c lo hi.
Proof. apply withinb_spec. Qed.

Lemma prizes_withinb g p lo hi : withinb p (gn g) lo hi = true <-> prizes_within g p lo hi.
Proof. apply withinb_spec. Qed.

(** Solve a goal built from the predicates above on concrete data. *)
Ltac check1 :=
  match goal with
  | |- tour_from _ _ _ => apply tourb_spec; vm_compute; reflexivity
  | |- ~ tour_from _ _ _ => rewrite <- tourb_spec; vm_compute; discriminate
  | |- closed_tour _ _ _ _ => apply closedb_spec; vm_compute; reflexivity
  | |- ~ closed_tour _ _ _ _ => rewrite <- closedb_spec; vm_compute; discriminate
  | |- is_walk _ _ => apply walkb_spec; vm_compute; reflexivity
  | |- ~ is_walk _ _ => rewrite <- walkb_spec; vm_compute; discriminate
  | |- walk_cost _ _ _ _ => apply costb_spec; vm_compute; reflexivity
  | |- tour_prize _ _ _ => apply prizeb_spec; vm_compute; reflexivity
  | |- prize_sum _ _ _ => apply prizeb_spec; vm_compute; reflexivity
  | |- graph_ok _ => apply graph_okb_spec; vm_compute; reflexivity
  | |- costs_within _ _ _ _ => apply costs_withinb; vm_compute; reflexivity
  | |- prizes_within _ _ _ _ => apply prizes_withinb; vm_compute; reflexivity
  | |- is_edge _ _ _ => apply edgeb_spec; vm_compute; reflexivity
  | |- ~ is_edge _ _ _ => rewrite <- edgeb_spec; vm_compute; discriminate
  | |- NoDup _ => apply nodupb_spec; vm_compute; reflexivity
  | |- ~ NoDup _ => rewrite <- nodupb_spec; vm_compute; discriminate
  | |- Forall (fun v => v < _) _ => repeat constructor; simpl; lia
  | |- ~ In _ _ => simpl; lia
  | |- In _ _ => simpl; tauto
  | |- (_ <= _)%Z => vm_compute; discriminate
  | |- (_ < _)%Z => vm_compute; reflexivity
  | |- (_ <= _)%nat => simpl; lia
  | |- (_ < _)%nat => simpl; lia
  | |- _ = _ => vm_compute; reflexivity
  | |- _ <> _ => vm_compute; discriminate
  end.
Ltac check := repeat (match goal with |- _ /\ _ => split end); try check1.
