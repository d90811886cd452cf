(** * P_Lookup: lookups of edges, loops, variables; induced and cut edges *)
From Coq Require Import Permutation Sorted.
From Verif Require Import Base Graph Spec Spec_Cycle M_Walk M_Graph M_Solution M_ILP M_Subtour.
From Verif Require Import P_Base P_Walk P_Cycle P_ILP P_Model.
Open Scope nat_scope.

(** ** lookups that throw *)
(** A left-to-right map whose function either gives a value or one fixed exception. *)
Lemma mapM_throw {A B} (f : A -> res B) (P : A -> B -> Prop) (bad : A -> Prop) x l :
  (forall a, In a l -> (exists b, f a = Ok b /\ P a b) \/ (f a = Throw x /\ bad a)) ->
  (exists r, mapM f l = Ok r /\ Forall2 P l r) \/
  (mapM f l = Throw x /\ exists a, In a l /\ bad a).
Proof.
  induction l as [|a l IH]; intros H.
  - left. exists []. split; auto.
  - cbn [mapM]. destruct (H a (or_introl eq_refl)) as [(b & E & Hb)|[E Hb]]; rewrite E; cbn [bind].
    + destruct IH as [(r & Er & Hr)|[Er (a' & Ha & Hb')]].
      * intros a' Ha. apply H. now right.
      * left. exists (b :: r). rewrite Er. cbn [bind]. split; auto.
      * right. rewrite Er. cbn [bind]. split; auto. exists a'. split; auto. now right.
    + right. split; auto. exists a. split; auto. now left.
Qed.

Lemma self_loops_spec g vs : Forall (fun v => v < gn g) vs ->
  (exists ls, get_self_loops g vs = Ok ls /\ Forall2 (fun v l => step_edge g v v l) vs ls) \/
  (get_self_loops g vs = Throw NoSelfLoopFoundException /\
   exists v, In v vs /\ ~ is_edge g v v).
Proof.
  intros Hf. unfold get_self_loops.
  apply (mapM_throw _ (fun v l => step_edge g v v l) (fun v => ~ is_edge g v v)).
  intros v Hv. rewrite Forall_forall in Hf. destruct (edge_total g v v (Hf v Hv)) as [[e|] E]; rewrite E.
  - left. exists e. split; auto. now apply edge_Some.
  - right. split; auto. now apply edge_None.
Qed.

Lemma vertex_pairs_spec g ps : Forall (fun p => fst p < gn g) ps ->
  (exists es, edges_from_vertex_pairs g ps = Ok es /\
     Forall2 (fun p e => step_edge g (fst p) (snd p) e) ps es) \/
  (edges_from_vertex_pairs g ps = Throw EdgeNotFoundException /\
   exists p, In p ps /\ ~ is_edge g (fst p) (snd p)).
Proof.
  intros Hf. unfold edges_from_vertex_pairs.
  apply (mapM_throw _ (fun p e => step_edge g (fst p) (snd p) e)
           (fun p => ~ is_edge g (fst p) (snd p))).
  intros p Hp. rewrite Forall_forall in Hf.
  destruct (edge_total g (fst p) (snd p) (Hf p Hp)) as [[e|] E]; rewrite E.
  - left. exists e. split; auto. now apply edge_Some.
  - right. split; auto. now apply edge_None.
Qed.

Lemma variables_spec (m : nat -> option nat) es :
  (exists vs, get_edge_variables m es = Ok vs /\ Forall2 (fun e v => m e = Some v) es vs) \/
  (get_edge_variables m es = Throw VariableIsNullException /\ exists e, In e es /\ m e = None).
Proof.
  unfold get_edge_variables.
  apply (mapM_throw _ (fun e v => m e = Some v) (fun e => m e = None)).
  intros e _. destruct (m e) as [v|] eqn:E; [left; eauto|right; auto].
Qed.

(** ** induced edges *)
Lemma induced_inner g u t : u < gn g -> Forall (fun v => v < gn g) t -> forall acc,
  exists xs, foldM (fun acc v => do oe <- edge g u v;
                Ok (match oe with Some e => acc ++ [e] | None => acc end)) t acc = Ok (acc ++ xs) /\
    (NoDup t -> NoDup xs) /\
    (forall e, In e xs <-> exists v, In v t /\ step_edge g u v e).
Proof.
  intros Hu. induction t as [|v t IH]; intros Hf acc.
  - exists []. cbn. rewrite app_nil_r. split; auto. split; [constructor|].
    intros e. split; [intros []|intros (v & [] & _)].
  - apply Forall_cons_iff in Hf as [Hv Hf]. cbn [foldM].
    destruct (edge_total g u v Hu) as [[e|] E]; rewrite E; cbn [bind].
    + destruct (IH Hf (acc ++ [e])) as (xs & Ex & Hn & Hin). exists (e :: xs).
      rewrite Ex, <- app_assoc. split; auto. apply edge_Some in E. split.
      * intros Hd. apply NoDup_cons_iff in Hd as [Hd1 Hd2]. constructor; auto.
        rewrite Hin. intros (w & Hw & Hs). apply Hd1.
        destruct (joins_fun g e u v u w (proj1 E) (proj1 Hs)) as [[_ ->]|[-> ->]]; auto.
      * intros f. cbn [In]. rewrite Hin. split.
        -- intros [<-|(w & Hw & Hs)]; [exists v; auto|exists w; auto].
        -- intros (w & [<-|Hw] & Hs); [left; eapply step_edge_unique; eauto|right; eauto].
    + destruct (IH Hf acc) as (xs & Ex & Hn & Hin). exists xs. split; auto. split.
      * intros Hd. apply NoDup_cons_iff in Hd. tauto.
      * intros f. rewrite Hin. apply edge_None in E. split.
        -- intros (w & Hw & Hs). exists w. split; auto. now right.
        -- intros (w & [<-|Hw] & Hs); [|eauto]. exfalso. apply E. exists f. apply Hs.
Qed.

Lemma induced_ok g vs : Forall (fun v => v < gn g) vs -> NoDup vs ->
  exists es, get_edges_induced g vs = Ok es /\ NoDup es /\
    forall e, In e es <-> exists u v, In u vs /\ In v vs /\ u <> v /\ step_edge g u v e.
Proof.
  induction vs as [|u t IH]; intros Hf Hd; cbn [get_edges_induced].
  - exists []. split; auto. split; [constructor|].
    intros e. split; [intros []|intros (u & v & [] & _)].
  - apply Forall_cons_iff in Hf as [Hu Hf]. apply NoDup_cons_iff in Hd as [Hd1 Hd2].
    destruct (induced_inner g u t Hu Hf []) as (xs & Ex & Hxn & Hx). rewrite Ex. cbn [bind app].
    destruct (IH Hf Hd2) as (ys & Ey & Hyn & Hy). rewrite Ey. cbn [bind].
    exists (xs ++ ys). split; auto. split.
    + apply NoDup_app_iff. split; auto. split; auto. intros e H1 H2.
      apply Hx in H1 as (v & Hv & [Hj _]). apply Hy in H2 as (a & b & Ha & Hb & _ & [Hj' _]).
      destruct (joins_fun g e u v a b Hj Hj') as [[-> _]|[-> _]]; contradiction.
    + intros e. rewrite in_app_iff, Hx, Hy. split.
      * intros [(v & Hv & Hs)|(a & b & Ha & Hb & Hne & Hs)].
        -- exists u, v. split; [now left|]. split; [now right|]. split; auto. intros ->. contradiction.
        -- exists a, b. split; [now right|]. split; [now right|]. auto.
      * intros (a & b & [<-|Ha] & [<-|Hb] & Hne & Hs).
        -- congruence.
        -- left. exists b. auto.
        -- left. exists a. split; auto. now apply step_edge_sym.
        -- right. exists a, b. auto.
Qed.

(** ** cut edges *)
Lemma cut_ok g par : graph_ok g -> length par = gn g ->
  exists es, get_edges_from_cut g par = Ok es /\ StronglySorted lt es /\
    forall e, In e es <-> exists u v, joins g e u v /\
      nth_error par u = Some true /\ nth_error par v = Some false.
Proof.
  intros Hg Hl. unfold get_edges_from_cut.
  destruct (foldM_inv (fun acc e =>
           do uv <- endpoints g e;
           do a <- vget par (fst uv);
           do b <- vget par (snd uv);
           Ok (if Bool.eqb a b then acc else acc ++ [e]))
    (fun done acc => acc = filter (fun e => match nth_error (ge g) e with
        | Some (u, v) => match nth_error par u, nth_error par v with
                         | Some a, Some b => negb (Bool.eqb a b) | _, _ => false end
        | None => false end) done) (seq 0 (length (ge g))) []) as (es & E & Hes).
  - reflexivity.
  - intros done e rest acc Hs ->.
    assert (He : e < length (ge g)).
    { assert (H : In e (seq 0 (length (ge g)))) by (rewrite Hs; apply in_elt). apply in_seq in H. lia. }
    destruct (nth_error (ge g) e) as [[u v]|] eqn:Ee; [|apply nth_error_None in Ee; lia].
    rewrite (endpoints_ok g e u v Ee). cbn [bind fst snd].
    destruct (Hg u v (nth_error_In _ _ Ee)) as [Hu Hv].
    destruct (vget_ok par u) as (a & Ea & Na); [lia|]. rewrite Ea. cbn [bind].
    destruct (vget_ok par v) as (b & Eb & Nb); [lia|]. rewrite Eb. cbn [bind].
    eexists. split; [reflexivity|]. rewrite filter_app. cbn [filter]. rewrite Ee, Na, Nb.
    destruct (Bool.eqb a b); cbn [negb]; [now rewrite app_nil_r|reflexivity].
  - exists es. split; auto. split.
    + rewrite Hes. generalize (fun e => match nth_error (ge g) e with
        | Some (u, v) => match nth_error par u, nth_error par v with
                         | Some a, Some b => negb (Bool.eqb a b) | _, _ => false end
        | None => false end). intros P. clear. generalize 0 at 1. induction (length (ge g)) as [|n IH]; intros k.
      * constructor.
      * cbn [seq filter]. destruct (P k); auto. constructor; auto.
        apply Forall_forall. intros x Hx. apply filter_In in Hx as [Hx _]. apply in_seq in Hx. lia.
    + intros e. rewrite Hes, filter_In, in_seq. split.
      * intros [_ H]. destruct (nth_error (ge g) e) as [[u v]|] eqn:Ee; [|discriminate].
        destruct (nth_error par u) as [a|] eqn:Na; [|discriminate].
        destruct (nth_error par v) as [b|] eqn:Nb; [|discriminate].
        destruct a, b; try discriminate H.
        -- exists u, v. split; auto. now left.
        -- exists v, u. split; auto. now right.
      * intros (u & v & Hj & Hu & Hv). split; [apply joins_lt in Hj; lia|].
        destruct Hj as [-> | ->]; rewrite Hu, Hv; reflexivity.
Qed.

(** ** isPrizeFeasible *)
Lemma prize_feasible_ok p P quota vs : Forall (fun x => - P <= x <= P)%Z p ->
  Forall (fun v => v < length p) vs -> (Z.of_nat (length vs) * P <= int_max)%Z ->
  exists b z, is_prize_feasible p quota vs = Ok b /\ prize_sum p vs z /\ (b = true <-> (quota <= z)%Z).
Proof.
  intros Hp Hv Hb. destruct (total_prize_ok p P vs Hp Hv Hb) as (z & E & Hz).
  exists (quota <=? z)%Z, z. unfold is_prize_feasible. rewrite E. cbn [bind]. split; auto.
  split; auto. apply Z.leb_le.
Qed.

(** ** the edge list *)
Lemma seq_sorted n : forall a, StronglySorted lt (seq a n).
Proof.
  induction n as [|n IH]; intros a; cbn [seq]; constructor; auto.
  apply Forall_forall. intros x Hx. apply in_seq in Hx. lia.
Qed.

Lemma mapM_endpoints g : forall l a, (forall i x, nth_error l i = Some x -> nth_error (ge g) (a + i) = Some x) ->
  mapM (endpoints g) (seq a (length l)) = Ok l.
Proof.
  induction l as [|x l IH]; intros a H; cbn [length seq mapM]; [reflexivity|].
  unfold endpoints at 1. specialize (H 0 x eq_refl) as H0. rewrite Nat.add_0_r in H0. rewrite H0. cbn [bind].
  rewrite IH; [reflexivity|]. intros i y Hi. specialize (H (S i) y Hi). now rewrite Nat.add_succ_r in H.
Qed.

Lemma edge_vector_ok g : StronglySorted lt (get_edge_vector_of_graph g) /\
  (forall e, In e (get_edge_vector_of_graph g) <-> exists u v, joins g e u v) /\
  get_vertex_pairs g (get_edge_vector_of_graph g) = Ok (ge g).
Proof.
  unfold get_edge_vector_of_graph. split; [apply seq_sorted|]. split.
  - intros e. rewrite in_seq. split.
    + intros [_ H]. cbn [plus] in H. apply nth_error_Some in H.
      destruct (nth_error (ge g) e) as [[u v]|] eqn:E; [|congruence]. exists u, v. now left.
    + intros (u & v & [H|H]); apply nth_error_Some_lt in H; lia.
  - unfold get_vertex_pairs. apply mapM_endpoints. auto.
Qed.
