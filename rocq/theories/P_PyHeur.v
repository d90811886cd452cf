(** * P_PyHeur: proofs about components, blocks and the choice of the starting tour *)
From Verif Require Import Base P_Base M_Python Spec_Python P_Python.
Open Scope nat_scope.

(** ** Components and blocks *)
Lemma components_ok component g r : undirected g -> vertex g r -> component_of g r (component g r) ->
  exists h, remove_components_disconnected_from_vertex component g r = Ok h /\ induced_subgraph h g /\
    (forall v, vertex h v <-> reach g r v) /\
    (forall t, cycle_at (adj g) r t <-> cycle_at (adj h) r t).
Proof.
  intros U V C. unfold remove_components_disconnected_from_vertex.
  replace (memb r (nx_nodes g)) with true by (symmetry; apply memb_In; exact V).
  eexists. split; [reflexivity|].
  pose proof (subgraph_induced g (fun u => memb u (component g r)) U) as I.
  assert (VV : forall v, vertex (nx_subgraph g (fun u => memb u (component g r))) v <-> reach g r v).
  { intros v. rewrite subgraph_vertex, memb_In. rewrite (C v). split; [tauto|]. intros R. split; [|auto].
    destruct R; [auto|]. now apply (adj_vertex g u w U). }
  split; [exact I|]. split; [exact VV|]. intros t. split.
  - intros Cy. apply (cycle_in_induced _ g); auto. intros v J. apply VV. now apply (cycle_reach g r t Cy).
  - apply (cycle_from_induced _ g); auto.
Qed.

Lemma root_component_In comps r v : In v (root_component comps r) <->
  v = r \/ exists c, In c comps /\ In r c /\ 3 <= length c /\ In v c.
Proof.
  unfold root_component.
  assert (G : forall cs acc, In v (fold_left (fun acc c =>
    if andb (memb r c) (Nat.leb 3 (List.length c)) then acc ++ c else acc) cs acc) <->
    In v acc \/ exists c, In c cs /\ In r c /\ 3 <= length c /\ In v c).
  { induction cs as [|c cs IH]; intros acc; cbn [fold_left].
    - split; [auto|]. intros [H|(c & [] & _)]; auto.
    - rewrite IH. destruct (andb (memb r c) (Nat.leb 3 (length c))) eqn:E.
      + apply andb_prop in E as (E1 & E2). apply memb_In in E1. apply Nat.leb_le in E2.
        rewrite in_app_iff. split.
        * intros [[H|H]|(c' & ? & ?)]; [auto| |]; right; [exists c|exists c']; cbn; tauto.
        * intros [H|(c' & [<-|H] & ?)]; [auto|tauto|]. right. exists c'. tauto.
      + split.
        * intros [H|(c' & ? & ?)]; [auto|]. right. exists c'. cbn. tauto.
        * intros [H|(c' & [<-|H] & Q & L & J)]; [auto| |].
          -- exfalso. apply memb_In in Q. apply Nat.leb_le in L. now rewrite Q, L in E.
          -- right. exists c'. auto. }
  rewrite G. cbn. intuition.
Qed.

Lemma one_connected_ok bicomps g r : undirected g -> blocks_of g (bicomps g) ->
  let h := remove_one_connected_components bicomps g r in
  induced_subgraph h g /\
  (forall v, vertex h v <-> vertex g v /\ (v = r \/ exists t, cycle_at (adj g) r t /\ In v t)) /\
  (forall t, cycle_at (adj g) r t <-> cycle_at (adj h) r t).
Proof.
  intros U (B1 & B2 & B3) h. unfold h, remove_one_connected_components.
  set (keep := fun u => memb u (root_component (bicomps g) r)).
  pose proof (subgraph_induced g keep U) as I.
  assert (VV : forall v, vertex (nx_subgraph g keep) v <->
               vertex g v /\ (v = r \/ exists t, cycle_at (adj g) r t /\ In v t)).
  { intros v. rewrite subgraph_vertex. unfold keep. rewrite memb_In, root_component_In. split.
    - intros (V & [->|(c & Ic & Ir & L & Iv)]); [auto|]. split; [auto|].
      destruct (Nat.eq_dec v r) as [->|Q]; [auto|]. right. apply (B3 c r v); auto.
    - intros (V & [->|(t & C & J)]); [auto|]. split; [auto|].
      destruct (B2 r t C) as (c & Ic & Hc). right. exists c. split; [auto|].
      pose proof C as (vs & -> & N & L & _).
      split; [apply Hc; cbn; auto|]. split; [|auto].
      assert (incl (r :: vs) c) by (intros x Jx; apply Hc; cbn in *; rewrite in_app_iff; intuition).
      pose proof (NoDup_incl_length N H). cbn in *. lia. }
  split; [exact I|]. split; [exact VV|]. intros t. split.
  - intros C. apply (cycle_in_induced _ g); auto. intros v J. apply VV.
    split; [exact (cycle_vertices g r t U C v J)|]. right. eauto.
  - apply (cycle_from_induced _ g); auto.
Qed.

Lemma preprocessing_ok component bicomps depth pre (g : nxgraph) r :
  undirected g -> vertex g r -> length g < depth ->
  (pre_components pre = true -> component_of g r (component g r)) ->
  (pre_one_connected pre = true -> forall h, induced_subgraph h g -> blocks_of h (bicomps h)) ->
  pre_shortest_path_cutoff pre = false -> pre_disjoint_path_cutoff pre = false ->
  exists h, run_preprocessing component bicomps depth pre g r = Ok h /\ induced_subgraph h g /\
    (forall t, cycle_at (adj g) r t <-> cycle_at (adj h) r t).
Proof.
  intros U V L LC LB P1 P2. unfold run_preprocessing. rewrite P1, P2.
  assert (S1 : exists g1 : nxgraph, (if pre_components pre then remove_components_disconnected_from_vertex component g r
            else Ok g) = Ok g1 /\ induced_subgraph g1 g /\ length g1 <= length g /\
            (forall t, cycle_at (adj g) r t <-> cycle_at (adj g1) r t)).
  { destruct (pre_components pre).
    - destruct (components_ok component g r U V (LC eq_refl)) as (h & E & I & _ & C).
      exists h. split; [exact E|]. split; [exact I|]. split; [|exact C].
      unfold remove_components_disconnected_from_vertex in E.
      destruct (memb r (nx_nodes g)); [|discriminate]. injection E as <-.
      rewrite <- (map_length fst (nx_subgraph _ _)), subgraph_nodes, <- (map_length fst g).
      set (k := fun u => memb u (component g r)). generalize (map fst g). intros l.
      induction l; cbn; [lia|]. destruct (k a); cbn; lia.
    - exists g. split; [reflexivity|]. split; [exact (induced_refl g U)|]. split; [lia|]. intros; tauto. }
  destruct S1 as (g1 & -> & I1 & L1 & C1). cbn [bind].
  assert (S2 : exists g2 : nxgraph, (if pre_leaves pre then remove_leaves depth g1 else Ok g1) = Ok g2 /\
            induced_subgraph g2 g /\ (forall t, cycle_at (adj g) r t <-> cycle_at (adj g2) r t)).
  { destruct (pre_leaves pre).
    - destruct (remove_leaves_cycles depth g1) as (h & E & I & _ & _ & C); [apply I1|lia|].
      exists h. split; [exact E|]. split; [exact (induced_trans _ _ _ I I1)|].
      intros t. rewrite C1. apply C.
    - exists g1. auto. }
  destruct S2 as (g2 & -> & I2 & C2). cbn [bind]. cbv zeta.
  eexists. split; [reflexivity|].
  destruct (pre_one_connected pre); [|auto].
  destruct (one_connected_ok bicomps g2 r (proj1 I2) (LB eq_refl g2 I2)) as (I & _ & C).
  split; [exact (induced_trans _ _ _ I I2)|]. intros t. rewrite C2. apply C.
Qed.

(** ** Choice of the starting tour *)
Lemma there_and_back_code first second tour : there_and_back first second tour ->
  tour_from_vertex_disjoint_paths (first, second) = Ok tour.
Proof. intros (s & t & a & b & -> & -> & ->). apply tvdp_shape. Qed.
Lemma there_and_back_fun f s t t' : there_and_back f s t -> there_and_back f s t' -> t = t'.
Proof. intros H H'. apply there_and_back_code in H, H'. congruence. Qed.

Lemma prizes_total_fun pm l z z' : NoDup (map fst pm) -> prizes_total pm l z -> prizes_total pm l z' -> z = z'.
Proof.
  intros N H. revert z'. induction H as [|v l p z E H IH]; intros z' H'.
  - now inversion H'.
  - inversion H' as [|v' l' p' z1 E' H1]; subst.
    apply (dget_some _ _ _ N) in E, E'. f_equal; [congruence|auto].
Qed.
Lemma total_prize_ok pm tour : NoDup (map fst pm) ->
  (forall u, In u tour -> exists p, entry pm u p) ->
  exists z, total_prize_of_tour pm tour = Ok z /\ prizes_total pm (removelast tour) z.
Proof.
  intros N H. unfold total_prize_of_tour.
  assert (G : forall l acc, (forall u, In u l -> exists p, entry pm u p) -> exists z,
     foldM (fun acc v => match dget pm v with
                      | Some p => Ok (acc + p)%Z
                      | None => Throw KeyErrorPy
                      end) l acc = Ok (acc + z)%Z /\ prizes_total pm l z).
  { induction l as [|v l IH]; intros acc Hl.
    - exists 0%Z. cbn. rewrite Z.add_0_r. split; [auto|constructor].
    - destruct (Hl v) as (p & Hp); [cbn; auto|]. cbn [foldM].
      rewrite (dget_some pm v p N Hp). cbn [bind].
      destruct (IH (acc + p)%Z) as (z & E & Pz); [intros; apply Hl; cbn; auto|].
      exists (p + z)%Z. rewrite E. split; [f_equal; lia|]. constructor; auto. }
  destruct (G (removelast tour) 0%Z) as (z & E & Pz).
  - intros u I. apply H. destruct tour as [|x l]; [destruct I|].
    destruct (exists_last (l := x :: l) ltac:(discriminate)) as (a & y & E). rewrite E in *.
    rewrite removelast_snoc in I. apply in_app_iff. auto.
  - exists z. rewrite E. auto.
Qed.

Lemma simple_test s vs : Nat.eqb (length (nodup Nat.eq_dec (s :: vs ++ [s]))) (length (s :: vs ++ [s]) - 1) = true
  <-> NoDup (removelast (s :: vs ++ [s])).
Proof.
  rewrite removelast_cons_snoc. rewrite Nat.eqb_eq.
  assert (E : length (nodup Nat.eq_dec (s :: vs ++ [s])) = length (nodup Nat.eq_dec (s :: vs))).
  { apply Nat.le_antisymm; apply NoDup_incl_length; try apply NoDup_nodup;
      intros x I; apply nodup_In in I; apply nodup_In; cbn in *; rewrite ?in_app_iff in *; cbn in *; intuition. }
  rewrite E. replace (length (s :: vs ++ [s]) - 1) with (length (s :: vs)) by (cbn; rewrite app_length; cbn; lia).
  split.
  - intros L. apply NoDup_incl_NoDup with (nodup Nat.eq_dec (s :: vs)).
    + apply NoDup_nodup.
    + lia.
    + intros x I. now apply nodup_In in I.
  - intros N. now rewrite nodup_fixed_point.
Qed.
Lemma there_and_back_closed f s t : there_and_back f s t -> exists x vs, t = x :: vs ++ [x].
Proof. intros (x & y & a & b & _ & _ & ->). exists x, (a ++ [y] ++ rev b). now rewrite <- !app_assoc. Qed.

Section Choice.
Variables (pm cm : list (nat * Z)) (paths : list (nat * (list nat * list nat))) (quota : Z).
Hypothesis (CM : complete_maps pm cm paths).

(** What is known after some of the entries. *)
Definition best_of (done : list (nat * (list nat * list nat))) (st : Z * list nat) : Prop :=
  (st = (py_maxsize, []) /\
     forall v tour cost, feasible_start pm quota cm done v tour cost -> (py_maxsize <= cost)%Z) \/
  (exists v tour cost, st = (cost, tour) /\ (cost < py_maxsize)%Z /\
     feasible_start pm quota cm done v tour cost /\
     forall v' tour' cost', feasible_start pm quota cm done v' tour' cost' -> (cost <= cost')%Z).

Lemma start_tour_snoc done e v tour prize cost :
  start_tour pm cm (done ++ [e]) v tour prize cost <->
  start_tour pm cm done v tour prize cost \/ start_tour pm cm [e] v tour prize cost.
Proof.
  unfold start_tour, entry. split.
  - intros (f & s & I & R). apply in_app_iff in I as [I|I]; [left|right]; exists f, s; auto.
  - intros [(f & s & I & R)|(f & s & I & R)]; exists f, s; (split; [apply in_app_iff; auto|auto]).
Qed.
Lemma feasible_snoc done e v tour cost :
  feasible_start pm quota cm (done ++ [e]) v tour cost <->
  feasible_start pm quota cm done v tour cost \/ feasible_start pm quota cm [e] v tour cost.
Proof.
  unfold feasible_start. split.
  - intros (p & S & R). apply start_tour_snoc in S as [S|S]; [left|right]; eauto.
  - intros [(p & S & R)|(p & S & R)]; exists p; (split; [apply start_tour_snoc; auto|auto]).
Qed.

Lemma entry_code v f s : In (v, (f, s)) paths -> exists tour prize cost,
  tour_from_vertex_disjoint_paths (f, s) = Ok tour /\ total_prize_of_tour pm tour = Ok prize /\
  dget cm v = Some cost /\ (exists x vs, tour = x :: vs ++ [x]) /\
  forall v' tour' prize' cost', start_tour pm cm [(v, (f, s))] v' tour' prize' cost' <->
    v' = v /\ tour' = tour /\ prize' = prize /\ cost' = cost.
Proof.
  intros I. destruct CM as (N1 & N2 & N3 & H). destruct (H v f s I) as ((tour & T & P) & (c & C)).
  destruct (total_prize_ok pm tour N1 P) as (z & E & Pz).
  exists tour, z, c. split; [now apply there_and_back_code|]. split; [exact E|].
  split; [now apply dget_some|]. split; [now apply there_and_back_closed in T|].
  intros v' tour' prize' cost'. split.
  - intros (f' & s' & [Q|[]] & T' & Pz' & C'). injection Q as <- <- <-.
    pose proof (there_and_back_fun _ _ _ _ T T') as <-.
    split; [auto|]. split; [auto|]. split; [exact (prizes_total_fun _ _ _ _ N1 Pz' Pz)|].
    unfold entry in *. apply (dget_some _ _ _ N2) in C, C'. congruence.
  - intros (-> & -> & -> & ->). exists f, s. split; [cbn; unfold entry; cbn; auto|]. auto.
Qed.

Lemma heuristic_loop : exists st,
  foldM (fun '(least, best) '(v, paths) =>
      do tour <- tour_from_vertex_disjoint_paths paths;
      do prize <- total_prize_of_tour pm tour;
      match dget cm v with
      | None => Throw KeyErrorPy
      | Some cost =>
          if andb (andb (Z.ltb cost least) (Z.leb quota prize))
                  (Nat.eqb (List.length (nodup Nat.eq_dec tour)) (List.length tour - 1))
          then Ok (cost, tour) else Ok (least, best)
      end) paths (py_maxsize, []) = Ok st /\ best_of paths st.
Proof.
  apply foldM_inv with (P := best_of).
  - left. split; [auto|]. intros v tour cost (p & (f & s & I & _) & _). destruct I.
  - intros done [v [f s]] rest [least best] E B.
    destruct (entry_code v f s) as (tour & prize & cost & E1 & E2 & E3 & (x & vs & Ex) & ST).
    { rewrite E. apply in_app_iff. cbn; auto. }
    rewrite E1. cbn [bind]. rewrite E2. cbn [bind]. rewrite E3.
    assert (FE : forall v' tour' cost', feasible_start pm quota cm [(v, (f, s))] v' tour' cost' <->
       v' = v /\ tour' = tour /\ cost' = cost /\ (quota <= prize)%Z /\ NoDup (removelast tour)).
    { intros v' tour' cost'. unfold feasible_start. split.
      - intros (p & S & Q & N). apply ST in S as (-> & -> & -> & ->). auto.
      - intros (-> & -> & -> & Q & N). exists prize. split; [apply ST; auto|auto]. }
    assert (LM : (least <= py_maxsize)%Z).
    { destruct B as [(B & _)|(? & ? & ? & B & Q & _)]; injection B as -> ->; lia. }
    destruct (andb _ _) eqn:T.
    + apply andb_prop in T as (T & T3). apply andb_prop in T as (T1 & T2).
      apply Z.ltb_lt in T1. apply Z.leb_le in T2. rewrite Ex in T3. apply simple_test in T3. rewrite <- Ex in T3.
      eexists. split; [reflexivity|]. right. exists v, tour, cost. split; [auto|].
      split; [lia|]. split; [apply feasible_snoc; right; apply FE; auto|].
      intros v' tour' cost' F. apply feasible_snoc in F as [F|F].
      * destruct B as [(B & M)|(? & ? & ? & B & Q & _ & M)]; injection B as -> ->; specialize (M _ _ _ F); lia.
      * apply FE in F. lia.
    + eexists. split; [reflexivity|].
      assert (NF : forall v' tour' cost', feasible_start pm quota cm [(v, (f, s))] v' tour' cost' -> (least <= cost')%Z).
      { intros v' tour' cost' F. apply FE in F as (-> & -> & -> & Q & N).
        rewrite Ex in N. apply simple_test in N. rewrite Ex, N in T. apply Z.leb_le in Q. rewrite Q in T.
        rewrite !andb_true_r in T. apply Z.ltb_ge in T. exact T. }
      destruct B as [(B & M)|(v0 & t0 & c0 & B & Q & F0 & M)]; injection B as -> ->.
      * left. split; [auto|]. intros v' tour' cost' F. apply feasible_snoc in F as [F|F]; eauto.
      * right. exists v0, t0, c0. split; [auto|]. split; [auto|].
        split; [apply feasible_snoc; auto|]. intros v' tour' cost' F. apply feasible_snoc in F as [F|F]; eauto.
Qed.

Lemma heuristic_ok : exists tour, suurballes_heuristic pm quota cm paths = Ok tour /\
  ((tour = [] /\ forall v tour' cost, feasible_start pm quota cm paths v tour' cost -> (py_maxsize <= cost)%Z) \/
   (exists v cost, (cost < py_maxsize)%Z /\ feasible_start pm quota cm paths v tour cost /\
      forall v' tour' cost', feasible_start pm quota cm paths v' tour' cost' -> (cost <= cost')%Z)).
Proof.
  unfold suurballes_heuristic. destruct heuristic_loop as (st & -> & B). cbn [bind].
  eexists. split; [reflexivity|]. destruct B as [(-> & M)|(v & tour & cost & -> & Q & F & M)].
  - left. auto.
  - right. exists v, cost. auto.
Qed.

Lemma feasible_nonempty ps v tour cost : feasible_start pm quota cm ps v tour cost -> tour <> [].
Proof. intros (p & (f & s & _ & T & _) & _). apply there_and_back_closed in T as (x & vs & ->). discriminate. Qed.

Definition biggest_of (done : list (nat * (list nat * list nat))) (st : Z * list nat) : Prop :=
  (st = (0%Z, []) /\ forall v tour prize cost, start_tour pm cm done v tour prize cost -> (prize <= 0)%Z) \/
  (exists v tour prize cost, st = (prize, tour) /\ (0 < prize)%Z /\ start_tour pm cm done v tour prize cost /\
     forall v' tour' prize' cost', start_tour pm cm done v' tour' prize' cost' -> (prize' <= prize)%Z).

Lemma biggest_loop : exists st,
  foldM (fun '(big, best) '((_, paths) : nat * (list nat * list nat)) =>
          do tour <- tour_from_vertex_disjoint_paths paths;
          do prize <- total_prize_of_tour pm tour;
          if Z.ltb big prize then Ok (prize, tour) else Ok (big, best)) paths (0%Z, []) = Ok st /\
  biggest_of paths st.
Proof.
  apply foldM_inv with (P := biggest_of).
  - left. split; [auto|]. intros v tour prize cost (f & s & I & _). destruct I.
  - intros done [v [f s]] rest [big best] E B.
    destruct (entry_code v f s) as (tour & prize & cost & E1 & E2 & E3 & _ & ST).
    { rewrite E. apply in_app_iff. cbn; auto. }
    rewrite E1. cbn [bind]. rewrite E2. cbn [bind].
    destruct (Z.ltb_spec big prize).
    + eexists. split; [reflexivity|]. right. exists v, tour, prize, cost. split; [auto|].
      assert (0 <= big)%Z by (destruct B as [(B & _)|(? & ? & ? & ? & B & Q & _)]; injection B as -> ->; lia).
      split; [lia|]. split; [apply start_tour_snoc; right; apply ST; auto|].
      intros v' tour' prize' cost' S. apply start_tour_snoc in S as [S|S].
      * destruct B as [(B & M)|(? & ? & ? & ? & B & Q & _ & M)]; injection B as -> ->; specialize (M _ _ _ _ S); lia.
      * apply ST in S. lia.
    + eexists. split; [reflexivity|].
      destruct B as [(B & M)|(v0 & t0 & p0 & c0 & B & Q & F0 & M)]; injection B as -> ->.
      * left. split; [auto|]. intros v' tour' prize' cost' S. apply start_tour_snoc in S as [S|S]; [eauto|].
        apply ST in S. lia.
      * right. exists v0, t0, p0, c0. split; [auto|]. split; [auto|]. split; [apply start_tour_snoc; auto|].
        intros v' tour' prize' cost' S. apply start_tour_snoc in S as [S|S]; [eauto|]. apply ST in S. lia.
Qed.

Lemma initialization_ok : exists tour, suurballes_tour_initialization pm quota cm paths = Ok tour /\
  ((exists v cost, (cost < py_maxsize)%Z /\ feasible_start pm quota cm paths v tour cost /\
      forall v' tour' cost', feasible_start pm quota cm paths v' tour' cost' -> (cost <= cost')%Z) \/
   ((forall v tour' cost, feasible_start pm quota cm paths v tour' cost -> (py_maxsize <= cost)%Z) /\
    ((tour = [] /\ forall v tour' prize cost, start_tour pm cm paths v tour' prize cost -> (prize <= 0)%Z) \/
     (exists v prize cost, (0 < prize)%Z /\ start_tour pm cm paths v tour prize cost /\
        forall v' tour' prize' cost', start_tour pm cm paths v' tour' prize' cost' -> (prize' <= prize)%Z)))).
Proof.
  unfold suurballes_tour_initialization. destruct heuristic_ok as (tour & -> & H). cbn [bind].
  destruct tour as [|x l].
  - destruct biggest_loop as (st & E & B). fold (tour_from_vertex_disjoint_paths) in *.
    rewrite E. cbn [bind]. eexists. split; [reflexivity|]. right.
    split.
    + destruct H as [(_ & H)|(v & cost & _ & F & _)]; [exact H|]. now apply feasible_nonempty in F.
    + destruct B as [(-> & M)|(v & tour & prize & cost & -> & Q & F & M)]; [left; auto|].
      right. exists v, prize, cost. auto.
  - eexists. split; [reflexivity|]. left. destruct H as [(H & _)|H]; [discriminate|exact H].
Qed.
End Choice.
