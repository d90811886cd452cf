(** * P_MaxFlow: the max-flow separation *)
From Coq Require Import Permutation.
From Verif Require Import Base Graph Spec Spec_Cycle M_Walk M_Graph M_Solution M_ILP M_Subtour M_Renaming
  M_MaxFlow Spec_ILP Spec_Rename Spec_Flow.
From Verif Require Import P_Base P_Walk P_Cycle P_ILP P_Model P_Lookup P_Cuts P_Component P_Separate
  P_Solution P_Renaming P_Flow.
Open Scope nat_scope.

(** ** the arcs of the support graph *)
Fixpoint net_arcs (k : nat) (ps : list (nat * nat)) (cs : list Z) : list arc :=
  match ps, cs with
  | p :: ps, c :: cs => four_arcs k p c ++ net_arcs (k + 4) ps cs
  | _, _ => []
  end.

Definition ends_max (ps : list (nat * nat)) : nat :=
  fold_left (fun n p => Nat.max n (S (Nat.max (fst p) (snd p)))) ps 0.

Lemma net_arcs_length ps : forall k cs, length ps <= length cs -> length (net_arcs k ps cs) = 4 * length ps.
Proof.
  induction ps as [|p ps IH]; intros k [|c cs] H; cbn [length] in *; try lia; auto.
  cbn [net_arcs]. rewrite app_length, IH by lia. cbn [four_arcs length]. lia.
Qed.

Lemma net_arcs_snoc ps : forall k cs p c, length cs = length ps ->
  net_arcs k (ps ++ [p]) (cs ++ [c]) = net_arcs k ps cs ++ four_arcs (k + 4 * length ps) p c.
Proof.
  induction ps as [|q ps IH]; intros k [|c' cs] p c H; try discriminate H.
  - cbn [net_arcs app length]. rewrite app_nil_r. f_equal. lia.
  - cbn [app net_arcs length] in *. rewrite IH by lia. rewrite <- app_assoc.
    now replace (k + 4 + 4 * length ps) with (k + 4 * S (length ps)) by lia.
Qed.

Lemma support_net_eq ps cs : length ps <= length cs ->
  support_net ps cs = Ok (mkNet (ends_max ps) (net_arcs 0 ps (firstn (length ps) cs))).
Proof.
  intros Hle. unfold support_net.
  assert (G : forall n, n <= length ps ->
    foldM (fun d i => do uv <- vget ps i; do cap <- vget cs i;
           Ok (mkNet (Nat.max (n_size d) (S (Nat.max (fst uv) (snd uv))))
                     (n_arcs d ++ four_arcs (length (n_arcs d)) uv cap))) (seq 0 n) (mkNet 0 []) =
    Ok (mkNet (ends_max (firstn n ps)) (net_arcs 0 (firstn n ps) (firstn n cs)))).
  { induction n as [|n IH]; intros Hn; [reflexivity|].
    rewrite seq_S, foldM_app, IH by lia. cbn [bind foldM plus].
    destruct (nth_some_ex ps n) as [p Hp]; [lia|]. destruct (nth_some_ex cs n) as [c Hc]; [lia|].
    rewrite (vget_some _ _ _ Hp), (vget_some _ _ _ Hc). cbn [bind n_size n_arcs].
    assert (Ep : firstn (S n) ps = firstn n ps ++ [p]).
    { rewrite <- (firstn_skipn n ps) at 1. rewrite firstn_app, firstn_firstn, firstn_length.
      replace (Nat.min (S n) n) with n by lia. f_equal. replace (S n - Nat.min n (length ps)) with 1 by lia.
      destruct (skipn n ps) as [|q l] eqn:E.
      - exfalso. assert (length (skipn n ps) = 0) by now rewrite E. rewrite skipn_length in *. lia.
      - rewrite <- (firstn_skipn n ps), E, nth_error_app2 in Hp by (rewrite firstn_length; lia).
        rewrite firstn_length in Hp. replace (n - Nat.min n (length ps)) with 0 in Hp by lia. cbn in Hp.
        inversion Hp. reflexivity. }
    assert (Ec : firstn (S n) cs = firstn n cs ++ [c]).
    { rewrite <- (firstn_skipn n cs) at 1. rewrite firstn_app, firstn_firstn, firstn_length.
      replace (Nat.min (S n) n) with n by lia. f_equal. replace (S n - Nat.min n (length cs)) with 1 by lia.
      destruct (skipn n cs) as [|q l] eqn:E.
      - exfalso. assert (length (skipn n cs) = 0) by now rewrite E. rewrite skipn_length in *. lia.
      - rewrite <- (firstn_skipn n cs), E, nth_error_app2 in Hc by (rewrite firstn_length; lia).
        rewrite firstn_length in Hc. replace (n - Nat.min n (length cs)) with 0 in Hc by lia. cbn in Hc.
        inversion Hc. reflexivity. }
    rewrite Ep, Ec, net_arcs_snoc by (rewrite !firstn_length; lia).
    unfold ends_max. rewrite fold_left_app. cbn [fold_left].
    rewrite net_arcs_length by (rewrite !firstn_length; lia). reflexivity. }
  rewrite (G (length ps)) by lia. now rewrite firstn_all.
Qed.

Lemma ends_max_le ps n : ends_max ps <= n <-> Forall (fun p => fst p < n /\ snd p < n) ps.
Proof.
  unfold ends_max.
  assert (G : forall k, fold_left (fun n p => Nat.max n (S (Nat.max (fst p) (snd p)))) ps k <= n <->
                k <= n /\ Forall (fun p => fst p < n /\ snd p < n) ps).
  { induction ps as [|p ps IH]; intros k; cbn [fold_left].
    - split; [auto|tauto].
    - rewrite IH, Forall_cons_iff. split; intros H; repeat split; try tauto; try lia. }
  rewrite G. split; [tauto|]. split; [lia|auto].
Qed.

Lemma net_arcs_In ps : forall k cs a, In a (net_arcs k ps cs) -> exists p, In p ps /\
  ((a_src a = fst p /\ a_dst a = snd p) \/ (a_src a = snd p /\ a_dst a = fst p)).
Proof.
  induction ps as [|p ps IH]; intros k [|c cs] a H; try (now destruct H).
  cbn [net_arcs] in H. apply in_app_iff in H. destruct H as [H|H].
  - exists p. split; [now left|]. cbn in H. decompose [or] H; subst; cbn; auto; contradiction.
  - destruct (IH _ _ _ H) as (q & Hq & E). exists q. split; auto. now right.
Qed.

Lemma net_arcs_ok ps cs : net_ok (mkNet (ends_max ps) (net_arcs 0 ps cs)).
Proof.
  unfold net_ok. cbn [n_arcs n_size]. apply Forall_forall. intros a H.
  apply net_arcs_In in H as (p & Hp & E).
  pose proof (proj1 (ends_max_le ps (ends_max ps)) (Nat.le_refl _)) as HF.
  rewrite Forall_forall in HF. specialize (HF p Hp). lia.
Qed.

Lemma net_arcs_paired ps : forall k cs i a, nth_error (net_arcs k ps cs) i = Some a ->
  exists b j, a_rev a = k + j /\ nth_error (net_arcs k ps cs) j = Some b /\ a_rev b = k + i /\
    a_src b = a_dst a /\ a_dst b = a_src a /\ j <> i.
Proof.
  induction ps as [|p ps IH]; intros k [|c cs] i a H; try (now destruct i).
  cbn [net_arcs] in *. set (four := four_arcs k p c) in *.
  destruct (Nat.lt_ge_cases i 4) as [Hi|Hi].
  - rewrite nth_error_app1 in H by (cbn; lia).
    destruct i as [|[|[|[|i]]]]; try lia; cbn in H; inversion H; subst a; cbn [a_rev a_src a_dst].
    + eexists _, 2. split; [reflexivity|]. rewrite nth_error_app1 by (cbn; lia). cbn. repeat split; cbn; lia.
    + eexists _, 3. split; [reflexivity|]. rewrite nth_error_app1 by (cbn; lia). cbn. repeat split; cbn; lia.
    + eexists _, 0. split; [lia|]. rewrite nth_error_app1 by (cbn; lia). cbn. repeat split; cbn; lia.
    + eexists _, 1. split; [reflexivity|]. rewrite nth_error_app1 by (cbn; lia). cbn. repeat split; cbn; lia.
  - rewrite nth_error_app2 in H by (cbn; lia). change (length four) with 4 in H.
    destruct (IH _ _ _ _ H) as (b & j & E1 & E2 & E3 & E4 & E5 & E6).
    exists b, (4 + j). split; [lia|]. split.
    { rewrite nth_error_app2 by (cbn; lia). change (length four) with 4. now replace (4 + j - 4) with j by lia. }
    repeat split; auto; lia.
Qed.

Lemma net_paired n ps cs : paired (mkNet n (net_arcs 0 ps cs)).
Proof.
  intros i a H. cbn [n_arcs] in *. destruct (net_arcs_paired ps 0 cs i a H) as (b & j & E1 & E2 & E3 & E4 & E5 & E6).
  cbn in E1, E3. subst j. exists b. auto.
Qed.

(** capacity of a cut: each support edge counts once *)
Fixpoint pair_cut (U : list nat) (ps : list (nat * nat)) (cs : list Z) : Z :=
  match ps, cs with
  | p :: ps, c :: cs => ((if crosses U p then c else 0) + pair_cut U ps cs)%Z
  | _, _ => 0%Z
  end.

Lemma arc_sum_app P f l : forall k m, arc_sum P f k (l ++ m) = (arc_sum P f k l + arc_sum P f (k + length l) m)%Z.
Proof.
  induction l as [|a l IH]; intros k m; cbn [arc_sum app length].
  - now rewrite Nat.add_0_r.
  - rewrite IH. replace (S k + length l) with (k + S (length l)) by lia. lia.
Qed.

Lemma arc_sum_shift P (f : arc -> Z) l : forall k k', arc_sum P (fun _ a => f a) k l = arc_sum P (fun _ a => f a) k' l.
Proof. induction l as [|a l IH]; intros k k'; cbn [arc_sum]; [reflexivity|]. now rewrite (IH (S k) (S k')). Qed.

Lemma net_cut U ps : forall k k' cs,
  arc_sum (fun a => andb (negb (memb (a_src a) U)) (memb (a_dst a) U)) (fun _ a => a_cap a) k' (net_arcs k ps cs)
  = pair_cut U ps cs.
Proof.
  induction ps as [|p ps IH]; intros k k' [|c cs]; try reflexivity.
  cbn [net_arcs pair_cut]. rewrite arc_sum_app, IH. unfold crosses.
  cbn [four_arcs arc_sum a_src a_dst a_cap].
  destruct (memb (fst p) U), (memb (snd p) U); cbn [negb andb xorb]; lia.
Qed.

(** ** cuts of points *)
Definition eterm (P : nat * nat -> bool) (x : nat -> Z) (l : list (nat * nat)) (e : nat) : Z :=
  match nth_error l e with Some p => if P p then x e else 0%Z | None => 0%Z end.

Lemma edge_sum_terms P x l : edge_sum P x 0 l = zsum (eterm P x l) (seq 0 (length l)).
Proof.
  assert (G : forall l k, edge_sum P x k l = zsum (fun j => eterm P (fun j => x (k + j)) l j) (seq 0 (length l))).
  { clear l. induction l as [|a l IH]; intros k; cbn [edge_sum length seq]; [reflexivity|].
    cbn [zsum]. rewrite <- seq_shift, zsum_map, IH. f_equal.
    - unfold eterm. cbn. now rewrite Nat.add_0_r.
    - apply zsum_ext. intros j _. unfold eterm. cbn [nth_error].
      destruct (nth_error l j); auto. now rewrite Nat.add_succ_r. }
  rewrite G. reflexivity.
Qed.

Lemma zsum_swap (f : nat -> nat -> Z) A B :
  zsum (fun a => zsum (f a) B) A = zsum (fun b => zsum (fun a => f a b) A) B.
Proof.
  induction A as [|a A IH]; cbn [zsum].
  - symmetry. now apply zsum_zero.
  - rewrite IH, <- zsum_plus. reflexivity.
Qed.

Lemma zsum_if (P : nat -> bool) f l : zsum (fun a => if P a then f a else 0%Z) l = zsum f (filter P l).
Proof. induction l as [|a l IH]; [reflexivity|]. cbn [zsum filter]. destruct (P a); cbn [zsum]; lia. Qed.

Lemma zsum_one_vertex (S : list nat) a z : NoDup S ->
  zsum (fun v => if Nat.eqb a v then z else 0%Z) S = if memb a S then z else 0%Z.
Proof.
  induction 1 as [|v S Hv Hn IH]; [reflexivity|]. cbn [zsum memb existsb]. fold (memb a S). rewrite IH.
  destruct (Nat.eqb_spec a v) as [->|Hne]; cbn [orb]; [|lia].
  apply memb_not_In in Hv. rewrite Hv. lia.
Qed.

(** twice the edges inside plus the cut is the sum of the degrees *)
Lemma degree_sum g x S : NoDup S ->
  zsum (degree_at g x) S = (2 * zsum x (filter (fun e => negb (loopb g e) && inside g (fun v => memb v S) e) (eids g))
                            + cut_value g x S)%Z.
Proof.
  intros HS. unfold degree_at, cut_value.
  rewrite (zsum_ext _ (fun v => zsum (eterm (crosses [v]) x (ge g)) (seq 0 (length (ge g))))) by (intros; apply edge_sum_terms).
  rewrite zsum_swap, edge_sum_terms, <- zsum_if. fold (eids g).
  rewrite <- Z.add_diag, <- !zsum_plus. apply zsum_ext. intros e He. apply eids_In in He.
  destruct (nth_some_ex _ _ He) as [[a b] E]. unfold eterm, loopb, inside, crosses. rewrite E. cbn [fst snd].
  rewrite (zsum_ext _ (fun v => (if Nat.eqb a v then (if Nat.eqb b a then 0 else x e) else 0)
                              + (if Nat.eqb b v then (if Nat.eqb b a then 0 else x e) else 0))%Z).
  - rewrite zsum_plus, !zsum_one_vertex by auto. rewrite (Nat.eqb_sym a b).
    destruct (Nat.eqb_spec b a) as [->|Hne]; cbn [negb andb].
    + destruct (memb a S); cbn [xorb]; lia.
    + destruct (memb a S), (memb b S); cbn [xorb andb]; lia.
  - intros v _. cbn [memb existsb]. rewrite !orb_false_r.
    destruct (Nat.eqb_spec a v), (Nat.eqb_spec b v), (Nat.eqb_spec b a); cbn [xorb]; lia.
Qed.


Lemma induced_perm g S es : no_parallel g -> induced g S es ->
  Permutation es (filter (fun e => negb (loopb g e) && inside g (fun v => memb v S) e) (eids g)).
Proof.
  intros Hp [Hn He]. apply NoDup_Permutation; auto; [apply NoDup_filter, seq_NoDup|].
  intros e. rewrite He, filter_In, andb_true_iff, negb_true_iff. split.
  - intros (u & v & Hu & Hv & Hne & Hj & _). split; [apply eids_In; eapply joins_lt; eauto|].
    rewrite (loopb_joins g e u v Hj), (inside_joins g _ e u v Hj).
    split; [now apply Nat.eqb_neq|]. apply andb_true_iff. split; now apply memb_In.
  - intros (Hlt & Hl & Hi). apply eids_In in Hlt. destruct (joins_exists g e Hlt) as (u & v & Hj).
    rewrite (loopb_joins g e u v Hj) in Hl. rewrite (inside_joins g _ e u v Hj) in Hi.
    apply andb_true_iff in Hi as [Hu Hv]. apply memb_In in Hu, Hv. apply Nat.eqb_neq in Hl.
    exists u, v. split; auto. split; auto. split; auto. split; auto.
    intros f Hf. rewrite (Hp e f u v Hj Hf). lia.
Qed.

Lemma degree_rows_frac g s ds : no_parallel g -> all_loops g -> graph_ok g ->
  degree_constraints g = Ok ds -> Forall (row_sat s) ds -> degrees_two g (s_num s).
Proof.
  intros Hp Hl Hg Eds Hsat v l Hj.
  destruct (degree_constraints_ok g Hp Hl (mkSol 1%Z (fun _ => 0%Z))) as (ds' & E' & Hds).
  rewrite Eds in E'. inversion E'; subst ds'. clear E'.
  assert (Hv : v < gn g) by (apply (is_edge_range g v v Hg); now exists l).
  unfold degree_rows in Hds.
  destruct (Forall2_In_l' _ _ _ v Hds) as (r & Hr & l' & Hj' & ->); [apply in_seq; lia|].
  rewrite Forall_forall in Hsat. destruct (Hsat _ Hr) as [H1 H2].
  cbn [l_lhs l_rhs l_terms lin_value] in *. specialize (H1 0%Z eq_refl). specialize (H2 0%Z eq_refl).
  rewrite (lin_value_pairs (s_num s) (fun _ => 1%Z)) in *.
  rewrite (Hp l' l v v Hj' Hj) in *.
  assert (E : zsum (fun e => (1 * s_num s e)%Z) (inc g v) = degree_at g (s_num s) v).
  { unfold degree_at, cut_value. rewrite edge_sum_terms. unfold inc. fold (eids g). rewrite <- zsum_if.
    apply zsum_ext. intros e He. apply eids_In in He. destruct (nth_some_ex _ _ He) as [[a b] E].
    unfold eterm, incb, crosses. rewrite E. cbn [fst snd memb existsb]. rewrite !orb_false_r.
    destruct (Nat.eqb_spec a b) as [->|Hne]; cbn [negb andb].
    - destruct (Nat.eqb b v); reflexivity.
    - destruct (Nat.eqb_spec a v), (Nat.eqb_spec b v); cbn [orb xorb]; try lia. }
  rewrite E in *. lia.
Qed.

(** ** the row of one call *)
Lemma loops_sum g x S ls : degrees_two g x -> Forall2 (fun v l => step_edge g v v l) S ls ->
  (2 * zsum x ls = zsum (degree_at g x) S)%Z.
Proof.
  intros Hd. induction 1 as [|v l S ls [Hj _] _ IH]; [reflexivity|]. cbn [zsum]. rewrite (Hd v l Hj). lia.
Qed.

Lemma zsum_without (x : nat -> Z) S v : NoDup S -> In v S ->
  zsum x S = (x v + zsum x (filter (fun u => negb (Nat.eqb u v)) S))%Z.
Proof.
  induction 1 as [|u S Hu Hn IH]; intros Hin; [destruct Hin|]. cbn [zsum filter].
  destruct (Nat.eqb_spec u v) as [->|Hne]; cbn [negb zsum].
  - rewrite filter_all; auto. intros w Hw. apply negb_true_iff, Nat.eqb_neq. intros ->. contradiction.
  - destruct Hin as [E|Hin]; [congruence|]. rewrite IH by auto. lia.
Qed.

Definition sec_at (g : graph) (s : sol) (S : list nat) (v : nat) (row : lin) : Prop :=
  no_parallel g -> degrees_two g (s_num s) ->
  forall l, joins g l v v -> (row_sat s row <-> (2 * s_num s l <= cut_value g (s_num s) S)%Z).

Lemma add_sec_cut lib g s S root target st : Forall (fun v => v < gn g) S -> NoDup S -> all_loops g ->
  target < gn g -> (In root S <-> ~ In target S) ->
  exists row st', add_sec lib g (var_map g) S root target st = Ok st' /\
    adds_row lib row st st' /\ valid_row g root row /\ sec_at g s S target row.
Proof.
  intros Hf Hn Hl Htg Hx.
  assert (Hl' : forall v, In v S -> is_edge g v v).
  { intros v Hv. apply Hl. rewrite Forall_forall in Hf. auto. }
  unfold add_sec. destruct (in_dec Nat.eq_dec target S) as [Hin|Hin].
  - assert (Hr : ~ In root S) by tauto.
    destruct (sec_terms_out g S root target Hf Hn Hl' Hr Hin) as (es & ls & E & He & Hls).
    rewrite E. cbn [bind].
    destruct (add_row_ok lib (es ++ ls) (repeat 1%Z (length es) ++ repeat (-1)%Z (length ls))
      None (Some 0%Z) st) as (st' & Es & Hs).
    { now rewrite !app_length, !repeat_length. }
    eexists. exists st'. split; [exact Es|]. split; [exact Hs|]. split.
    { intros t s' Ht Hi. eapply sec_out_valid; eauto. }
    intros Hp Hd l Hj.
    pose proof (zsum_perm (s_num s) _ _ (induced_perm g S es Hp He)) as EP.
    pose proof (degree_sum g (s_num s) S Hn) as DS. rewrite <- EP in DS.
    pose proof (loops_sum g _ _ _ Hd Hls) as LS.
    pose proof (zsum_without (degree_at g (s_num s)) S target Hn Hin) as ZW.
    rewrite (Hd target l Hj) in ZW.
    unfold row_sat. cbn [l_lhs l_rhs l_terms].
    rewrite combine_app_eq by (now rewrite repeat_length).
    rewrite lin_value_app, !lin_value_const. split.
    + intros [_ H]. specialize (H 0%Z eq_refl). lia.
    + intros H. split; [discriminate|]. intros b Eb. inversion Eb; subst. lia.
  - assert (Hr : In root S) by tauto.
    destruct (sec_terms_in g S root target Hf Hn Htg (Hl target Htg) Hl' Hr Hin)
      as (es & ls & lt & E & He & Hls & Hlt).
    rewrite E. cbn [bind].
    destruct (add_row_ok lib (es ++ ls ++ [lt])
      (repeat 1%Z (length es) ++ repeat (-1)%Z (length ls) ++ [1%Z]) None (Some 0%Z) st)
      as (st' & Es & Hs).
    { rewrite !app_length, !repeat_length. reflexivity. }
    eexists. exists st'. split; [exact Es|]. split; [exact Hs|]. split.
    { intros t s' Ht Hi. eapply (sec_in_valid g S root target); eauto. }
    intros Hp Hd l Hj.
    pose proof (zsum_perm (s_num s) _ _ (induced_perm g S es Hp He)) as EP.
    pose proof (degree_sum g (s_num s) S Hn) as DS. rewrite <- EP in DS.
    pose proof (loops_sum g _ _ _ Hd Hls) as LS.
    rewrite (Hp lt l target target (proj1 Hlt) Hj) in *.
    unfold row_sat. cbn [l_lhs l_rhs l_terms].
    rewrite !combine_app_eq by (now rewrite repeat_length).
    rewrite !lin_value_app, !lin_value_const. cbn [combine lin_value]. split.
    + intros [_ H]. specialize (H 0%Z eq_refl). lia.
    + intros H. split; [discriminate|]. intros b Eb. inversion Eb; subst. lia.
Qed.

(** ** the network *)
Definition supb (g : graph) (s : sol) (e : nat) : bool := negb (loopb g e) && is_var_positive s e.
Definition capv (s : sol) (e : nat) : Z := capacity_of (s_num s e) (s_den s).
Definition cape (g : graph) (s : sol) (e : nat) : Z := if supb g s e then capv s e else 0%Z.

Lemma filter_shorter {A} (P : A -> bool) l : length (filter P l) <= length l.
Proof. induction l as [|a l IH]; cbn [filter length]; [lia|]. destruct (P a); cbn [length]; lia. Qed.

Lemma solution_edges_sup g s entries : var_entries g entries ->
  exists es, get_solution_edges g s entries = Ok es /\ Permutation es (filter (supb g s) (eids g)).
Proof.
  intros He. exists (filter (supb g s) (map fst entries)). split.
  - unfold get_solution_edges. rewrite solution_edges_raw; [reflexivity|].
    apply Forall_forall. intros ev Hin. apply (Permutation_in _ He) in Hin.
    apply in_map_iff in Hin as (e & <- & Hin). apply in_seq in Hin. cbn. lia.
  - apply (Permutation_map fst) in He. rewrite map_map in He. cbn [fst] in He. rewrite map_id in He.
    fold (eids g) in He. apply (filter_perm (supb g s)) in He. exact He.
Qed.

Definition compb (comp : list nat) (p : nat * nat) : bool := andb (memb (fst p) comp) (memb (snd p) comp).

Record network (g : graph) (s : sol) (root : nat) (comp : list nat)
  (es : list nat) (ps rp out : list (nat * nat)) (labels : list nat) (d : net) (sroot : nat) : Prop := {
  nw_es : Permutation es (filter (supb g s) (eids g));
  nw_ps : Forall2 (fun e p => nth_error (ge g) e = Some p) es ps;
  nw_rp : rp = filter (compb comp) ps;
  nw_nd : NoDup labels;
  nw_in : forall v, In v labels <-> In v (ends rp);
  nw_out : Forall2 (edge_named labels) rp out;
  nw_d : d = mkNet (length labels) (net_arcs 0 out (firstn (length out) (map (capv s) es)));
  nw_root : nth_error labels sroot = Some root }.

Lemma out_size labels rp out : NoDup labels -> (forall v, In v labels <-> In v (ends rp)) ->
  Forall2 (edge_named labels) rp out -> ends_max out = length labels.
Proof.
  intros Hn Hin HF. apply Nat.le_antisymm.
  - apply ends_max_le. apply Forall_forall. intros q Hq.
    destruct (Forall2_In_r' _ _ _ q HF Hq) as (p & _ & H1 & H2).
    apply nth_some_lt in H1, H2. auto.
  - destruct (Nat.le_gt_cases (length labels) (ends_max out)) as [|Hgt]; auto. exfalso.
    destruct (nth_some_ex labels (ends_max out)) as [v Hv]; [lia|].
    pose proof (nth_error_In _ _ Hv) as Hvin. apply Hin, In_ends in Hvin as (p & Hp & Ep).
    destruct (Forall2_In_l' _ _ _ p HF Hp) as (q & Hq & H1 & H2).
    pose proof (proj1 (ends_max_le out (ends_max out)) (Nat.le_refl _)) as HM.
    rewrite Forall_forall in HM. specialize (HM q Hq).
    assert (ends_max out = fst q \/ ends_max out = snd q) as [E|E]; [|lia|lia].
    destruct Ep as [-> | ->]; [left|right];
      apply (proj1 (NoDup_nth_error labels) Hn); try (eapply nth_some_lt; eauto); congruence.
Qed.

Lemma network_ok g s entries root comp : var_entries g entries ->
  (exists e v, joins g e root v /\ root <> v /\ is_var_positive s e = true /\ In root comp /\ In v comp) ->
  exists es ps rp out labels d sroot,
    get_solution_edges g s entries = Ok es /\
    maxflow_network g s entries (var_map g) root comp = Ok (bm_of labels, d, sroot) /\
    network g s root comp es ps rp out labels d sroot.
Proof.
  intros He (e0 & v0 & Hj & Hne & Hpos & Hrc & Hvc).
  destruct (solution_edges_sup g s entries He) as (es & Ees & HP).
  assert (Hes : forall e, In e es <-> e < length (ge g) /\ supb g s e = true).
  { intros e. rewrite <- eids_In, <- filter_In. split; apply Permutation_in; auto. now apply Permutation_sym. }
  assert (Eps : exists ps, get_vertex_pairs g es = Ok ps /\ Forall2 (fun e p => nth_error (ge g) e = Some p) es ps).
  { unfold get_vertex_pairs. apply mapM_exists. intros e Hin. apply Hes in Hin as [Hlt _].
    destruct (nth_some_ex _ _ Hlt) as [[a b] E]. exists (a, b). split; auto. now apply endpoints_ok. }
  destruct Eps as (ps & Eps & HF).
  assert (Ecap : get_capacity_vector g s entries (var_map g) = Ok (map (capv s) es)).
  { unfold get_capacity_vector. rewrite Ees. cbn [bind]. apply mapM_Forall2.
    assert (Hall : forall e, In e es -> e < length (ge g)) by (intros e Hin; now apply Hes).
    clear - Hall. induction es as [|e es IH]; cbn [map]; constructor.
    - unfold var_map. specialize (Hall e (or_introl eq_refl)). apply Nat.ltb_lt in Hall. now rewrite Hall.
    - apply IH. intros; apply Hall; now right. }
  set (rp := filter (compb comp) ps).
  destruct (rename_edges_ok rp) as (out & Ero & Hn & Hout).
  set (labels := labels_of (ends rp)) in *.
  assert (Hin : forall v, In v labels <-> In v (ends rp)) by (intros v; apply (labels_first (ends rp))).
  assert (Hroot : In root labels).
  { apply Hin, In_ends.
    assert (He0 : In e0 es).
    { apply Hes. split; [eapply joins_lt; eauto|]. unfold supb. rewrite (loopb_joins _ _ _ _ Hj), Hpos.
      rewrite (proj2 (Nat.eqb_neq root v0) Hne). reflexivity. }
    destruct (Forall2_In_l' _ _ _ e0 HF He0) as (p & Hp & E).
    exists p. split.
    - apply filter_In. split; auto. unfold compb. destruct Hj as [E'|E']; rewrite E in E'; inversion E'; subst; cbn [fst snd];
        apply andb_true_iff; split; now apply memb_In.
    - destruct Hj as [E'|E']; rewrite E in E'; inversion E'; subst; auto. }
  apply In_nth_error in Hroot as [sroot Hsr].
  assert (Lo : length out <= length es).
  { rewrite <- (Forall2_length_eq _ _ _ Hout), (Forall2_length_eq _ _ _ HF). apply filter_shorter. }
  exists es, ps, rp, out, labels, (mkNet (length labels) (net_arcs 0 out (firstn (length out) (map (capv s) es)))), sroot.
  split; auto. split.
  - unfold maxflow_network. rewrite Ees. cbn [bind]. rewrite Ecap. cbn [bind]. rewrite Eps. cbn [bind].
    cbv zeta. change (filter (fun p => memb (fst p) comp && memb (snd p) comp) ps) with rp. rewrite Ero.
    rewrite support_net_eq by (rewrite map_length; lia). cbn [bind].
    rewrite (get_new_ok labels sroot root Hn Hsr). cbn [bind].
    now rewrite (out_size labels rp out Hn Hin Hout).
  - constructor; auto.
Qed.

Section Net.
Context (g : graph) (s : sol) (root : nat) (comp es : list nat) (ps rp out : list (nat * nat))
  (labels : list nat) (d : net) (sroot : nat)
  (HN : network g s root comp es ps rp out labels d sroot).

Lemma nw_size : n_size d = length labels.
Proof. now rewrite (nw_d _ _ _ _ _ _ _ _ _ _ _ HN). Qed.

Lemma nw_ok : net_ok d.
Proof.
  destruct HN. subst d. pose proof (net_arcs_ok out (firstn (length out) (map (capv s) es))) as H.
  now rewrite (out_size labels rp out nw_nd0 nw_in0 nw_out0) in H.
Qed.

Lemma nw_paired : paired d.
Proof. destruct HN. subst d. apply net_paired. Qed.

Lemma nw_sroot : sroot < n_size d.
Proof. rewrite nw_size. destruct HN. eapply nth_some_lt; eauto. Qed.

Lemma nw_lt : graph_ok g -> forall v, In v labels -> v < gn g.
Proof.
  intros Hg v Hv. destruct HN. apply nw_in0, In_ends in Hv as ([a b] & Hp & Ep). rewrite nw_rp0 in Hp.
  apply filter_In in Hp as [Hp _]. destruct (Forall2_In_r' _ _ _ _ nw_ps0 Hp) as (e & _ & E).
  apply nth_error_In in E. destruct (Hg a b E). destruct Ep as [-> | ->]; cbn; auto.
Qed.

(** the old names of a list of support vertices *)
Lemma old_names vs : (forall v, In v vs -> v < n_size d) -> NoDup vs ->
  exists S, get_old_vertices (bm_of labels) vs = Ok S /\ NoDup S /\ incl S labels /\
    forall a u, nth_error labels a = Some u -> (In u S <-> In a vs).
Proof.
  intros Hlt Hnd.
  assert (E : exists S, renamed labels vs S).
  { clear Hnd. induction vs as [|v vs IH]; [exists []; constructor|].
    destruct IH as [S HS]; [intros; apply Hlt; now right|].
    destruct (nth_some_ex labels v) as [u Hu]; [rewrite <- nw_size; apply Hlt; now left|].
    exists (u :: S). constructor; auto. }
  destruct E as [S HS]. exists S. split; [now apply get_old_vertices_ok|].
  assert (Hn := nw_nd _ _ _ _ _ _ _ _ _ _ _ HN).
  assert (I : forall a u, nth_error labels a = Some u -> (In u S <-> In a vs)).
  { intros a u Hu. split; intros H.
    - destruct (Forall2_In_r' _ _ _ u HS H) as (b & Hb & Eb).
      assert (a = b) as ->; auto. apply (proj1 (NoDup_nth_error labels) Hn); [eapply nth_some_lt; eauto|congruence].
    - destruct (Forall2_In_l' _ _ _ a HS H) as (u' & Hu' & Eu). congruence. }
  split; [|split; auto].
  - clear I Hlt. induction HS as [|a u vs S Ha HS IH]; [constructor|].
    apply NoDup_cons_iff in Hnd as [Hav Hnd]. constructor; auto.
    intros Hin. destruct (Forall2_In_r' _ _ _ u HS Hin) as (b & Hb & Eb). apply Hav.
    assert (a = b) as ->; auto. apply (proj1 (NoDup_nth_error labels) Hn); [eapply nth_some_lt; eauto|congruence].
  - intros u Hu. destruct (Forall2_In_r' _ _ _ u HS Hu) as (b & _ & Eb). eapply nth_error_In; eauto.
Qed.

(** every support edge lies in the component of the root *)
Definition aligned : Prop := forall e a b, e < length (ge g) -> supb g s e = true ->
  nth_error (ge g) e = Some (a, b) -> In a comp /\ In b comp.

Lemma aligned_rp : aligned -> rp = ps.
Proof.
  intros Ha. destruct HN. rewrite nw_rp0. apply filter_all. intros [a b] Hp.
  destruct (Forall2_In_r' _ _ _ _ nw_ps0 Hp) as (e & He & E).
  apply (Permutation_in _ nw_es0) in He. apply filter_In in He as [He Hs]. apply eids_In in He.
  destruct (Ha e a b He Hs E) as [H1 H2]. unfold compb. cbn [fst snd].
  apply andb_true_iff. split; now apply memb_In.
Qed.

Lemma aligned_arcs : aligned -> n_arcs d = net_arcs 0 out (map (capv s) es).
Proof.
  intros Ha. destruct HN as [A B C D E F G H]. rewrite G. cbn [n_arcs].
  rewrite firstn_all2; auto. rewrite map_length, <- (Forall2_length_eq _ _ _ F), (aligned_rp Ha), (Forall2_length_eq _ _ _ B). lia.
Qed.

Lemma aligned_cut U S : aligned -> (forall a u, nth_error labels a = Some u -> (In u S <-> In a U)) ->
  pair_cut U out (map (capv s) es) = cut_value g (cape g s) S.
Proof.
  intros Ha HS. unfold cut_value. rewrite edge_sum_terms. fold (eids g).
  assert (E : pair_cut U out (map (capv s) es) = zsum (eterm (crosses S) (capv s) (ge g)) es).
  { pose proof (nw_out _ _ _ _ _ _ _ _ _ _ _ HN) as F. rewrite (aligned_rp Ha) in F.
    pose proof (nw_ps _ _ _ _ _ _ _ _ _ _ _ HN) as B. clear - F B HS. revert out F.
    induction B as [|e p es ps Hp B IH]; intros out F; inversion F; subst; [reflexivity|].
    cbn [map pair_cut zsum]. rewrite (IH _ H3). f_equal. unfold eterm. rewrite Hp.
    destruct H1 as [H1 H2]. unfold crosses.
    assert (M : forall a u, nth_error labels a = Some u -> memb a U = memb u S).
    { intros a u Hu. destruct (memb u S) eqn:E1.
      - apply memb_In in E1. apply memb_In. now apply (HS a u Hu).
      - apply memb_not_In in E1. apply memb_not_In. intros H. apply E1. now apply (HS a u Hu). }
    now rewrite (M _ _ H1), (M _ _ H2). }
  rewrite E, (zsum_perm _ _ _ (nw_es _ _ _ _ _ _ _ _ _ _ _ HN)), <- zsum_if.
  apply zsum_ext. intros e He. apply eids_In in He. destruct (nth_some_ex _ _ He) as [p Hp].
  unfold eterm, cape. rewrite Hp. destruct (supb g s e), (crosses S p); reflexivity.
Qed.
End Net.

(** ** capacities and values *)
Lemma capacity_error num den : (0 < den)%Z -> (0 <= num)%Z ->
  (1000 * (den * capacity_of num den) <= 1000000000 * num + den)%Z /\
  (1000000 * num <= den * capacity_of num den + den)%Z.
Proof.
  intros HD Hn. unfold capacity_of, scip_is_zero, flow_float_multiplier.
  destruct (Z.leb_spec (Z.abs num * 1000000000) den); [lia|].
  destruct (Z.leb_spec (Z.abs (num - den) * 1000000000) den); [lia|].
  destruct (Z.leb_spec (Z.abs (num - 2 * den) * 1000000000) den); [lia|].
  rewrite Z.quot_div_nonneg by lia.
  pose proof (Z.div_mod (1000000 * num) den ltac:(lia)) as Hdm.
  pose proof (Z.mod_pos_bound (1000000 * num) den HD). lia.
Qed.

Lemma capacity_exact num den k : (0 < den)%Z -> (0 <= num)%Z -> (num * 1000000 = k * den)%Z ->
  (den * capacity_of num den = 1000000 * num)%Z.
Proof.
  intros HD Hn Hk. unfold capacity_of, scip_is_zero, flow_float_multiplier.
  destruct (Z.leb_spec (Z.abs num * 1000000000) den) as [H|H].
  { assert (k = 0)%Z by nia. lia. }
  destruct (Z.leb_spec (Z.abs (num - den) * 1000000000) den) as [H1|H1].
  { assert (k = 1000000)%Z by nia. lia. }
  destruct (Z.leb_spec (Z.abs (num - 2 * den) * 1000000000) den) as [H2|H2].
  { assert (k = 2000000)%Z by nia. lia. }
  rewrite Z.mul_comm in Hk. rewrite Hk. rewrite Z.quot_mul by lia. lia.
Qed.

(** values and capacities differ by at most [a] (in 10^-9 of the value) resp. [b] (10^-6) *)
Definition errors (g : graph) (s : sol) (a b : Z) : Prop := (0 <= a)%Z /\ (0 <= b)%Z /\
  forall e, e < length (ge g) -> loopb g e = false ->
  (1000 * (s_den s * cape g s e) <= 1000000000 * s_num s e + a)%Z /\
  (1000000 * s_num s e <= s_den s * cape g s e + b)%Z.

Definition nonneg (g : graph) (s : sol) : Prop := (0 < s_den s)%Z /\
  forall e, e < length (ge g) -> (0 <= s_num s e)%Z.

Lemma errors_general g s : nonneg g s -> errors g s (s_den s) (s_den s).
Proof.
  intros [HD Hx]. split; [lia|]. split; [lia|]. intros e He Hl. specialize (Hx e He). unfold cape, supb. rewrite Hl. cbn [negb andb].
  destruct (is_var_positive s e) eqn:Ep; [now apply capacity_error|].
  assert (~ (s_den s < s_num s e * 1000000000)%Z) by (rewrite <- positive_spec by auto; congruence). lia.
Qed.

Lemma errors_exact g s : nonneg g s ->
  (forall e, e < length (ge g) -> exists k, (s_num s e * 1000000 = k * s_den s)%Z) -> errors g s 0 0.
Proof.
  intros [HD Hx] Hk. split; [lia|]. split; [lia|]. intros e He Hl. specialize (Hx e He). destruct (Hk e He) as [k Ek].
  unfold cape, supb. rewrite Hl. cbn [negb andb].
  destruct (is_var_positive s e) eqn:Ep.
  - unfold capv. rewrite (capacity_exact _ _ k HD Hx Ek). lia.
  - assert (~ (s_den s < s_num s e * 1000000000)%Z) by (rewrite <- positive_spec by auto; congruence).
    assert (Hk0 : (k <= 0)%Z).
    { destruct (Z.le_gt_cases k 0); auto. exfalso. assert (s_den s <= k * s_den s)%Z by nia. lia. }
    assert (k * s_den s <= 0)%Z by nia. lia.
Qed.

Lemma cut_errors g s a b S : errors g s a b ->
  (1000 * (s_den s * cut_value g (cape g s) S) <=
     1000000000 * cut_value g (s_num s) S + a * Z.of_nat (length (ge g)))%Z /\
  (1000000 * cut_value g (s_num s) S <=
     s_den s * cut_value g (cape g s) S + b * Z.of_nat (length (ge g)))%Z.
Proof.
  intros (Ha & Hb & He). unfold cut_value. rewrite !edge_sum_terms. fold (eids g).
  assert (L : length (eids g) = length (ge g)) by apply seq_length. rewrite <- L, <- !zsum_const.
  assert (M : forall k f l, (k * zsum f l = zsum (fun e => k * f e) l)%Z).
  { intros k f l. induction l as [|x l IH]; cbn [zsum]; lia. }
  rewrite !M, <- !zsum_plus.
  split; apply zsum_le; intros e Hin; apply eids_In in Hin;
    destruct (nth_some_ex _ _ Hin) as [[u v] Ep]; unfold eterm; cbv beta; rewrite Ep;
    (destruct (crosses S (u, v)) eqn:Ec; [|lia]);
    (assert (Hl : loopb g e = false) by
      (unfold loopb; rewrite Ep; apply Nat.eqb_neq; intros ->; unfold crosses in Ec; cbn [fst snd] in Ec;
       rewrite xorb_nilpotent in Ec; discriminate));
    destruct (He e Hin Hl); lia.
Qed.

(** ** the loop over the targets *)
Lemma pair_cut_compl R U ps : forall cs,
  Forall (fun p => memb (fst p) R = negb (memb (fst p) U) /\ memb (snd p) R = negb (memb (snd p) U)) ps ->
  pair_cut R ps cs = pair_cut U ps cs.
Proof.
  induction ps as [|p ps IH]; intros [|c cs] H; try reflexivity.
  apply Forall_cons_iff in H as [[H1 H2] H]. cbn [pair_cut]. rewrite (IH cs H). unfold crosses. rewrite H1, H2.
  destruct (memb (fst p) U), (memb (snd p) U); reflexivity.
Qed.

Section Loop.
Context (lib : scip_lib) (mf : flow_lib) (g : graph) (Hg : graph_ok g) (Hl : all_loops g).
Context (s : sol) (root : nat) (comp es : list nat) (ps rp out : list (nat * nat))
  (labels : list nat) (d : net) (sroot : nat)
  (HN : network g s root comp es ps rp out labels d sroot).
Context (Hlen : forall t, length (snd (mf d sroot t)) = length (n_arcs d)).
Context (ea eb : Z).

Definition good : Prop := aligned g s comp /\ errors g s ea eb /\ (0 < s_den s)%Z /\
  forall t, t < n_size d -> t <> sroot -> max_flow d sroot t (fst (mf d sroot t)) (snd (mf d sroot t)).

Definition called (S : list nat) (v : nat) (row : lin) : Prop :=
  v < gn g /\ (In root S <-> ~ In v S) /\ NoDup S /\ valid_row g root row /\ sec_at g s S v row /\
  (good -> (1000000 * cut_value g (s_num s) S + s_den s <=
            2000000 * s_den s + eb * Z.of_nat (length (ge g)))%Z).

Definition marked (st : mf_state) (u : nat) : Prop := nth_error (mf_added st) u = Some true.

(** what a step from [st] to [st'] with new rows [added] does *)
Definition progress (added : list lin) (st st' : mf_state) : Prop :=
  extends g root added (mf_sepa st) (mf_sepa st') /\
  length (mf_added st') = length (mf_added st) /\
  mf_num st + length added <= mf_num st' /\
  (forall row, In row added -> exists S v, called S v row) /\
  (forall u, marked st u -> marked st' u) /\
  (forall u, marked st' u -> marked st u \/
     exists v S row, nth_error labels u = Some v /\ called S v row /\ (efficacious lib row = true -> In row added)).

Lemma progress_refl st : progress [] st st.
Proof. repeat split; auto; try (intros ? []); cbn; try lia. now rewrite app_nil_r. Qed.

Lemma progress_trans l1 l2 a b c : progress l1 a b -> progress l2 b c -> progress (l1 ++ l2) a c.
Proof.
  intros (A1 & A2 & A3 & A4 & A5 & A6) (B1 & B2 & B3 & B4 & B5 & B6).
  split; [eapply extends_trans; eauto|]. split; [congruence|]. split; [rewrite app_length; lia|].
  split; [intros row H; apply in_app_iff in H as [H|H]; auto|]. split; [auto|].
  intros u H. destruct (B6 u H) as [H'|(v & S & row & H1 & H2 & H3)].
  - destruct (A6 u H') as [H''|(v & S & row & H1 & H2 & H3)]; auto.
    right. exists v, S, row. split; auto. split; auto. intros He. apply in_app_iff. auto.
  - right. exists v, S, row. split; auto. split; auto. intros He. apply in_app_iff. auto.
Qed.

Lemma add_secs_ok S U st : Forall (fun v => v < gn g) S -> NoDup S ->
  length (mf_added st) = n_size d ->
  (forall u, In u U -> u < n_size d /\ forall v, nth_error labels u = Some v -> (In root S <-> ~ In v S)) ->
  (good -> (1000000 * cut_value g (s_num s) S + s_den s <=
            2000000 * s_den s + eb * Z.of_nat (length (ge g)))%Z) ->
  exists st' added, add_secs lib g (var_map g) root (bm_of labels) S U st = Ok st' /\
    progress added st st' /\ forall u, In u U -> marked st' u.
Proof.
  intros Hf Hn Hla HU Hb. unfold add_secs.
  match goal with |- context [foldM ?f _ _] =>
    destruct (foldM_inv f (fun done st' => exists added, progress added st st' /\ forall u, In u done -> marked st' u) U st)
      as (st' & E & added & HP & HM) end.
  - exists []. split; [apply progress_refl|]. intros u [].
  - intros done u rest st1 Esp (added & HP & HM).
    destruct (HU u) as [Hu Hsep]; [rewrite Esp; apply in_app_iff; right; now left|].
    rewrite (nw_size _ _ _ _ _ _ _ _ _ _ _ HN) in Hu. destruct (nth_some_ex labels u Hu) as [v Hv].
    assert (Hvg : v < gn g) by (eapply nw_lt; eauto; eapply nth_error_In; eauto).
    rewrite (get_old_ok labels u v Hv). cbn [bind].
    destruct (add_sec_cut lib g s S root v (mf_sepa st1) Hf Hn Hl Hvg (Hsep v Hv)) as (row & sp & Es & Ha & Hval & Hsec).
    rewrite Es. cbn [bind]. rewrite (get_new_ok labels u v (nw_nd _ _ _ _ _ _ _ _ _ _ _ HN) Hv). cbn [bind].
    assert (L1 : length (mf_added st1) = n_size d) by (destruct HP as (_ & L & _); congruence).
    assert (Hul : u < length (mf_added st1)) by (rewrite L1, (nw_size _ _ _ _ _ _ _ _ _ _ _ HN); auto).
    rewrite vset_ok by auto. cbn [bind]. eexists. split; [reflexivity|].
    assert (Hc : called S v row) by (split; [auto|split; [apply (Hsep v Hv)|auto]]).
    destruct (adds_row_extends lib g root row (mf_sepa st1) sp Ha Hval) as (ad & Hext & Heff).
    assert (Had : ad = [] \/ ad = [row]).
    { destruct (efficacious lib row) eqn:Ee; [right; auto|left].
      destruct Hext as (X1 & _ & _). unfold adds_row in Ha. rewrite Ee in Ha. subst sp.
      rewrite <- (app_nil_r (sp_rows (mf_sepa st1))) in X1 at 1. now apply app_inv_head in X1. }
    assert (PS : progress ad st1 (mkMf sp (Datatypes.S (mf_num st1)) (upd (mf_added st1) u true))).
    { split; [exact Hext|]. split; [apply upd_length|]. split; [cbn [mf_num]; destruct Had as [-> | ->]; cbn; lia|].
      split; [intros r Hr; destruct Had as [-> | ->]; [destruct Hr|destruct Hr as [<-|[]]; eauto]|].
      split.
      - intros w Hw. unfold marked in *. cbn [mf_added]. rewrite upd_nth by auto. destruct (Nat.eqb u w); auto.
      - intros w Hw. unfold marked in *. cbn [mf_added] in Hw. rewrite upd_nth in Hw by auto.
        destruct (Nat.eq_dec u w) as [Euw|Hne]; [|rewrite (proj2 (Nat.eqb_neq u w) Hne) in Hw; now left].
        right. rewrite <- Euw. exists v, S, row. split; auto. split; auto. intros Ee. rewrite (Heff Ee). now left. }
    exists (added ++ ad). split; [eapply progress_trans; eauto|].
    intros w Hw. apply in_app_iff in Hw as [Hw|[<-|[]]].
    + apply PS. auto.
    + unfold marked. cbn [mf_added]. now apply upd_same.
  - exists st', added. auto.
Qed.

Lemma out_lt : Forall (fun p => fst p < n_size d /\ snd p < n_size d) out.
Proof.
  rewrite (nw_size _ _ _ _ _ _ _ _ _ _ _ HN). apply Forall_forall. intros q Hq.
  destruct (Forall2_In_r' _ _ _ q (nw_out _ _ _ _ _ _ _ _ _ _ _ HN) Hq) as (p & _ & H1 & H2).
  apply nth_some_lt in H1, H2. auto.
Qed.

Lemma target_ok st t : t < n_size d -> length (mf_added st) = n_size d -> marked st sroot ->
  exists st' added, maxflow_target lib mf g (var_map g) root (bm_of labels) d sroot st t = Ok st' /\
    progress added st st' /\
    (good -> marked st' t \/ (2000000 <= fst (mf d sroot t))%Z).
Proof.
  intros Ht Hla Hms. unfold maxflow_target.
  destruct (nth_some_ex (mf_added st) t) as [b Hb]; [lia|].
  rewrite (vget_some _ _ _ Hb). cbn [bind]. destruct b.
  { exists st, []. split; auto. split; [apply progress_refl|]. intros _. now left. }
  assert (Hts : t <> sroot) by (intros ->; unfold marked in Hms; congruence).
  pose proof (Hlen t) as Hlt. destruct (mf d sroot t) as [z r] eqn:Em. cbn [fst snd] in *.
  change (2 * flow_float_multiplier)%Z with 2000000%Z.
  destruct (Z.ltb_spec z 2000000) as [Hz|Hz].
  2:{ exists st, []. split; auto. split; [apply progress_refl|]. intros _. now right. }
  pose proof (nw_sroot _ _ _ _ _ _ _ _ _ _ _ HN) as Hs.
  pose proof (nw_ok _ _ _ _ _ _ _ _ _ _ _ HN) as Hd.
  destruct (reachable_ok d r Hd Hlt sroot Hs) as (R & U & ER & EU & HnR & HnU & HR & HU).
  rewrite EU. cbn [bind].
  assert (HRl : forall v, In v R -> v < n_size d) by (intros v Hv; eapply dreach_lt; eauto; now apply HR).
  assert (HUl : forall v, In v U -> v < n_size d) by (intros v Hv; now apply HU).
  assert (HRU : forall v, v < n_size d -> (In v R <-> ~ In v U)).
  { intros v Hv. rewrite HR, HU. split; [tauto|]. intros H.
    destruct (in_dec Nat.eq_dec v R) as [Hi|Hi]; [now apply HR|]. exfalso. apply H. split; auto.
    intros Hr. apply Hi. now apply HR. }
  assert (HsU : ~ In sroot U) by (intros H; apply HU in H as [_ H]; apply H; constructor).
  assert (CUT : good -> In t U /\ forall S, (forall a u, nth_error labels a = Some u -> (In u S <-> In a U)) \/
      (forall a u, nth_error labels a = Some u -> (In u S <-> In a R)) ->
      (1000000 * cut_value g (s_num s) S + s_den s <= 2000000 * s_den s + eb * Z.of_nat (length (ge g)))%Z).
  { intros (Hal & Herr & HD & Hmf). specialize (Hmf t Ht Hts). rewrite Em in Hmf. cbn [fst snd] in Hmf.
    destruct (max_flow_cut d Hd (nw_paired _ _ _ _ _ _ _ _ _ _ _ HN) sroot t z r U) as [HtU Ez]; auto.
    split; auto. intros S HS.
    rewrite (aligned_arcs _ _ _ _ _ _ _ _ _ _ _ HN Hal), net_cut in Ez.
    assert (Ec : z = cut_value g (cape g s) S).
    { destruct HS as [HS|HS].
      - now rewrite <- (aligned_cut _ _ _ _ _ _ _ _ _ _ _ HN U S Hal HS).
      - rewrite <- (aligned_cut _ _ _ _ _ _ _ _ _ _ _ HN R S Hal HS), Ez. symmetry. apply pair_cut_compl.
        eapply Forall_impl; [|exact out_lt]. intros p [H1 H2].
        assert (G : forall v, v < n_size d -> memb v R = negb (memb v U)).
        { intros v Hv. specialize (HRU v Hv). destruct (memb v U) eqn:E1; cbn [negb].
          - apply memb_In in E1. apply memb_not_In. tauto.
          - apply memb_not_In in E1. apply memb_In. tauto. }
        auto. }
    destruct (cut_errors g s ea eb S Herr) as [_ H]. rewrite <- Ec in H.
    assert (s_den s * z <= 2000000 * s_den s - s_den s)%Z by nia. lia. }
  pose proof (nw_root _ _ _ _ _ _ _ _ _ _ _ HN) as Hroot.
  destruct (Nat.leb 3 (length U)).
  - destruct (old_names _ _ _ _ _ _ _ _ _ _ _ HN U HUl HnU) as (S & ES & HnS & HSl & HS).
    rewrite ES. cbn [bind].
    destruct (add_secs_ok S U st) as (st' & added & E & HP & HM); auto.
    + apply Forall_forall. intros v Hv. eapply nw_lt; eauto.
    + intros u Hu. split; auto. intros v Hv. rewrite (HS sroot root Hroot), (HS u v Hv). tauto.
    + intros G. apply (proj2 (CUT G)). now left.
    + exists st', added. split; auto. split; auto. intros G. left. apply HM, CUT, G.
  - rewrite ER. cbn [bind].
    destruct (old_names _ _ _ _ _ _ _ _ _ _ _ HN R HRl HnR) as (S & ES & HnS & HSl & HS).
    rewrite ES. cbn [bind].
    destruct (add_secs_ok S U st) as (st' & added & E & HP & HM); auto.
    + apply Forall_forall. intros v Hv. eapply nw_lt; eauto.
    + intros u Hu. split; auto. intros v Hv. rewrite (HS sroot root Hroot), (HS u v Hv).
      assert (In sroot R) by (apply HR; constructor). specialize (HRU u (HUl u Hu)). tauto.
    + intros G. apply (proj2 (CUT G)). now right.
    + exists st', added. split; auto. split; auto. intros G. left. apply HM, CUT, G.
Qed.

(** a cut below two around the vertex makes its flow small *)
Lemma small_cut_flow t v S : good -> nth_error labels t = Some v -> In v S -> ~ In root S ->
  (1000000000 * cut_value g (s_num s) S + ea * Z.of_nat (length (ge g)) < 2000000000 * s_den s)%Z ->
  t <> sroot /\ (fst (mf d sroot t) < 2000000)%Z.
Proof.
  intros (Hal & Herr & HD & Hmf) Hv HvS HrS Hcut.
  pose proof (nw_root _ _ _ _ _ _ _ _ _ _ _ HN) as Hroot.
  assert (Hts : t <> sroot) by (intros ->; congruence). split; auto.
  assert (Ht : t < n_size d) by (rewrite (nw_size _ _ _ _ _ _ _ _ _ _ _ HN); eapply nth_some_lt; eauto).
  destruct (Hmf t Ht Hts) as [Hf _].
  set (U := filter (fun a => match nth_error labels a with Some u => memb u S | None => false end) (seq 0 (n_size d))).
  assert (HU : forall a u, nth_error labels a = Some u -> (In u S <-> In a U)).
  { intros a u Hu. unfold U. rewrite filter_In, in_seq, Hu, memb_In. split; [|tauto]. intros H. split; auto.
    rewrite (nw_size _ _ _ _ _ _ _ _ _ _ _ HN). apply nth_some_lt in Hu. lia. }
  pose proof (weak_duality d (nw_paired _ _ _ _ _ _ _ _ _ _ _ HN) sroot t _ _ Hf U) as W.
  rewrite (aligned_arcs _ _ _ _ _ _ _ _ _ _ _ HN Hal), net_cut in W.
  rewrite (aligned_cut _ _ _ _ _ _ _ _ _ _ _ HN U S Hal HU) in W.
  destruct (cut_errors g s ea eb S Herr) as [H _].
  assert (W' : (fst (mf d sroot t) <= cut_value g (cape g s) S)%Z).
  { apply W; [apply NoDup_filter, seq_NoDup|now apply (HU t v Hv)|]. intros H'. apply HrS. now apply (HU sroot root Hroot). }
  assert (s_den s * cut_value g (cape g s) S < 2000000 * s_den s)%Z by lia. nia.
Qed.

Lemma separate_ok st0 : exists st' added,
  (do added <- (if Nat.ltb sroot (n_size d) then vset (repeat false (n_size d)) sroot true
               else Ok (repeat false (n_size d)));
   do st' <- foldM (maxflow_target lib mf g (var_map g) root (bm_of labels) d sroot) (seq 0 (n_size d))
                  (mkMf (fst st0) (snd st0) added);
   Ok (mf_sepa st', mf_num st')) = Ok st' /\
  extends g root added (fst st0) (fst st') /\ snd st0 + length added <= snd st' /\
  (forall row, In row added -> exists S v, called S v row) /\
  (good -> forall v S0, In v labels -> In v S0 -> ~ In root S0 ->
     (1000000000 * cut_value g (s_num s) S0 + ea * Z.of_nat (length (ge g)) < 2000000000 * s_den s)%Z ->
     exists S row, called S v row /\ (efficacious lib row = true -> In row added)).
Proof.
  pose proof (nw_sroot _ _ _ _ _ _ _ _ _ _ _ HN) as Hs. pose proof (proj2 (Nat.ltb_lt _ _) Hs) as Hs'.
  rewrite Hs'. rewrite vset_ok by (now rewrite repeat_length). cbn [bind].
  set (init := mkMf (fst st0) (snd st0) (upd (repeat false (n_size d)) sroot true)).
  assert (Li : length (mf_added init) = n_size d) by (cbn; now rewrite upd_length, repeat_length).
  assert (Mi : forall u, marked init u <-> u = sroot).
  { intros u. unfold marked, init. cbn [mf_added]. rewrite upd_nth by (now rewrite repeat_length).
    destruct (Nat.eqb_spec sroot u) as [<-|Hne]; [tauto|]. split; [|congruence]. intros H.
    apply nth_error_In, repeat_spec in H. discriminate. }
  destruct (foldM_inv (maxflow_target lib mf g (var_map g) root (bm_of labels) d sroot)
    (fun done st => exists added, progress added init st /\
       (good -> forall t, In t done -> marked st t \/ (2000000 <= fst (mf d sroot t))%Z)) (seq 0 (n_size d)) init)
    as (st & E & added & HP & HM).
  - exists []. split; [apply progress_refl|]. intros _ t [].
  - intros done t rest st Esp (added & HP & HM).
    assert (Ht : In t (seq 0 (n_size d))) by (rewrite Esp; apply in_app_iff; right; now left). apply in_seq in Ht.
    destruct (target_ok st t) as (st' & ad & E & HP' & HM'); [lia| | |].
    + destruct HP as (_ & L & _). congruence.
    + apply HP. now apply Mi.
    + exists st'. split; auto. exists (added ++ ad). split; [eapply progress_trans; eauto|].
      intros G u Hu. apply in_app_iff in Hu as [Hu|[<-|[]]]; auto.
      destruct (HM G u Hu); auto. left. now apply HP'.
  - rewrite E. cbn [bind]. exists (mf_sepa st, mf_num st), added. split; auto.
    destruct HP as (P1 & P2 & P3 & P4 & P5 & P6). split; auto. split; auto. split; auto.
    intros G v S0 Hv HvS HrS Hcut. apply In_nth_error in Hv as [t Hv].
    destruct (small_cut_flow t v S0 G Hv HvS HrS Hcut) as [Hts Hfl].
    destruct (HM G t) as [Hmk|Hbig]; [|destruct (P6 t Hmk) as [Hi|(v' & S & row & H1 & H2 & H3)]|lia].
    + apply in_seq. rewrite (nw_size _ _ _ _ _ _ _ _ _ _ _ HN). apply nth_some_lt in Hv. lia.
    + apply Mi in Hi. contradiction.
    + rewrite Hv in H1. inversion H1; subst v'. eauto.
Qed.
End Loop.
