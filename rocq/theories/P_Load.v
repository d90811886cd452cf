(** * P_Load: proofs about the graph of a vial *)
From Coq Require Import String.
From Verif Require Import Base M_Python M_PyWrap M_Compare M_Load Spec_Python Spec_Load P_Base P_PyWrap.
Open Scope nat_scope.

(** ** Renaming the attribute of the edges *)

Definition meets (a b u v : nat) : bool := (Nat.eqb a u && Nat.eqb b v || Nat.eqb a v && Nat.eqb b u)%bool.

Lemma meets_iff a b u v : meets a b u v = true <-> (a = u /\ b = v) \/ (a = v /\ b = u).
Proof. unfold meets. rewrite Bool.orb_true_iff, !Bool.andb_true_iff, !Nat.eqb_eq. tauto. Qed.

Lemma meets_swap a b u v : meets b a u v = meets a b u v.
Proof. unfold meets. destruct (Nat.eqb a u), (Nat.eqb b v), (Nat.eqb a v), (Nat.eqb b u); reflexivity. Qed.

Definition single (es : list (nat * nat)) : Prop :=
  forall e f u v, (nth_error es e = Some (u, v) \/ nth_error es e = Some (v, u)) ->
    (nth_error es f = Some (u, v) \/ nth_error es f = Some (v, u)) -> e = f.

Lemma single_cons u v es : single ((u, v) :: es) -> single es /\ ~ In (u, v) es /\ ~ In (v, u) es.
Proof.
  intro S. split; [|split].
  - intros e f a b H K. enough (Datatypes.S e = Datatypes.S f) by lia.
    apply (S _ _ a b); [exact H|exact K].
  - intro I. apply In_nth_error in I as (i & I). specialize (S 0 (Datatypes.S i) u v (or_introl eq_refl) (or_introl I)). discriminate.
  - intro I. apply In_nth_error in I as (i & I). specialize (S 0 (Datatypes.S i) u v (or_introl eq_refl) (or_intror I)). discriminate.
Qed.

Definition step_edge (g : attr_graph) (e : nat * nat) : res attr_graph :=
  let '(u, v) := e in
  match ag_weight g u v with
  | Some w => Ok (mkAttr (ag_adj g) (set_edge (ag_weight g) u v None) (set_edge (ag_cost g) u v (Some w)) (ag_demand g) (ag_prize g))
  | None => Throw KeyErrorPy
  end.

Lemma rename_is g : rename_edge_attributes g = foldM step_edge (edges_from [] (ag_adj g)) g.
Proof. reflexivity. Qed.

Lemma set_edge_sym f u v x : (forall a b, f a b = f b a) -> forall a b, set_edge f u v x a b = set_edge f u v x b a.
Proof.
  intros H a b. unfold set_edge. change (Nat.eqb b u && Nat.eqb a v || Nat.eqb b v && Nat.eqb a u)%bool with (meets b a u v).
  change (Nat.eqb a u && Nat.eqb b v || Nat.eqb a v && Nat.eqb b u)%bool with (meets a b u v).
  rewrite (meets_swap a b). destruct (meets a b u v); [reflexivity|apply H].
Qed.

Lemma step_edges es : forall g, single es -> (forall a b, ag_weight g a b = ag_weight g b a) ->
  (forall u v, In (u, v) es -> exists x, ag_weight g u v = Some x) ->
  exists w c, foldM step_edge es g = Ok (mkAttr (ag_adj g) w c (ag_demand g) (ag_prize g)) /\
    (forall u v, In (u, v) es \/ In (v, u) es -> c u v = ag_weight g u v).
Proof.
  enough (X : forall g, single es -> (forall a b, ag_weight g a b = ag_weight g b a) ->
    (forall u v, In (u, v) es -> exists x, ag_weight g u v = Some x) ->
    exists w c, foldM step_edge es g = Ok (mkAttr (ag_adj g) w c (ag_demand g) (ag_prize g)) /\
      (forall u v, In (u, v) es \/ In (v, u) es -> c u v = ag_weight g u v) /\
      (forall u v, ~ In (u, v) es -> ~ In (v, u) es -> c u v = ag_cost g u v)).
  { intros g A B C. destruct (X g A B C) as (w & c & E & H & _). exists w, c. auto. }
  induction es as [|(u, v) es IH]; intros g S Y H.
  - exists (ag_weight g), (ag_cost g). cbn. split; [destruct g; reflexivity|]. split; [intros u v [[]|[]]|reflexivity].
  - destruct (single_cons _ _ _ S) as (S' & N1 & N2).
    destruct (H u v (or_introl eq_refl)) as (x & EX).
    cbn [foldM]. unfold step_edge at 1. rewrite EX. cbn [bind].
    set (g1 := mkAttr _ _ _ _ _).
    assert (K : forall a b, In (a, b) es \/ In (b, a) es -> ag_weight g1 a b = ag_weight g a b).
    { intros a b I. cbn. unfold set_edge. fold (meets a b u v). destruct (meets a b u v) eqn:M; [|reflexivity].
      apply meets_iff in M as [(-> & ->)|(-> & ->)]; tauto. }
    destruct (IH g1 S') as (w & c & E & C & D).
    { cbn. apply set_edge_sym. exact Y. }
    { intros a b I. rewrite K by auto. apply H. right. exact I. }
    exists w, c. split; [exact E|]. split.
    + intros a b I. destruct (in_dec (fun p q : nat * nat => ltac:(decide equality; apply Nat.eq_dec)) (a, b) es) as [J|J];
      [rewrite C by auto; apply K; auto|].
      destruct (in_dec (fun p q : nat * nat => ltac:(decide equality; apply Nat.eq_dec)) (b, a) es) as [J'|J'];
      [rewrite C by auto; apply K; auto|].
      rewrite D by assumption. cbn. unfold set_edge. fold (meets a b u v).
      destruct I as [[I|I]|[I|I]]; try contradiction; injection I as -> ->.
      * replace (meets a b a b) with true by (symmetry; apply meets_iff; auto). symmetry. exact EX.
      * replace (meets a b b a) with true by (symmetry; apply meets_iff; auto). rewrite Y. symmetry. exact EX.
    + intros a b I J. cbn in I, J. rewrite D by tauto. cbn. unfold set_edge. fold (meets a b u v).
      destruct (meets a b u v) eqn:M; [|reflexivity]. apply meets_iff in M as [(-> & ->)|(-> & ->)]; tauto.
Qed.

Lemma edges_single g : undirected g -> single (edges_from [] g).
Proof. intros (N & L & _) e f u v He Hf. exact (edges_from_single g [] N L e f u v He Hf). Qed.

Lemma rename_ok g : weighted g -> exists w c, rename_edge_attributes g = Ok (mkAttr (ag_adj g) w c (ag_demand g) (ag_prize g)) /\
  (forall u v, adj (ag_adj g) u v -> c u v = ag_weight g u v).
Proof.
  intros (U & Y & H). rewrite rename_is.
  destruct (step_edges (edges_from [] (ag_adj g)) g (edges_single _ U) Y) as (w & c & E & C).
  { intros u v I. apply H, (edges_adj _ u v U). auto. }
  exists w, c. split; [exact E|]. intros u v A. apply C, (edges_adj _ u v U), A.
Qed.

Lemma step_edges_bad es : forall g u v, single es -> In (u, v) es -> ag_weight g u v = None -> foldM step_edge es g = Throw KeyErrorPy.
Proof.
  induction es as [|(a, b) es IH]; intros g u v S I N; [destruct I|].
  destruct (single_cons _ _ _ S) as (S' & N1 & N2). cbn [foldM]. unfold step_edge at 1.
  destruct (ag_weight g a b) as [x|] eqn:E; [|reflexivity]. cbn [bind].
  destruct I as [I|I]; [congruence|]. apply (IH _ u v S' I). cbn. unfold set_edge. fold (meets u v a b).
  destruct (meets u v a b) eqn:M; [|exact N]. apply meets_iff in M as [(-> & ->)|(-> & ->)]; tauto.
Qed.

Lemma rename_bad g u v : undirected (ag_adj g) -> adj (ag_adj g) u v -> ag_weight g u v = None -> ag_weight g v u = None ->
  rename_edge_attributes g = Throw KeyErrorPy.
Proof.
  intros U A N N'. rewrite rename_is. apply (edges_adj _ u v U) in A as [A|A].
  - exact (step_edges_bad _ _ u v (edges_single _ U) A N).
  - exact (step_edges_bad _ _ v u (edges_single _ U) A N').
Qed.

(** ** Prizes *)

Lemma rename_nodes_ok vs : forall g, NoDup vs -> (forall v, In v vs -> exists x, ag_demand g v = Some x) ->
  exists d p, rename_nodes vs g = (mkAttr (ag_adj g) (ag_weight g) (ag_cost g) d p, true) /\
    (forall v, In v vs -> p v = ag_demand g v) /\ (forall v, ~ In v vs -> p v = ag_prize g v).
Proof.
  induction vs as [|v vs IH]; intros g N H.
  - exists (ag_demand g), (ag_prize g). cbn. split; [destruct g; reflexivity|]. split; [intros v []|reflexivity].
  - apply NoDup_cons_iff in N as (NI & N). destruct (H v (or_introl eq_refl)) as (x & E). cbn [rename_nodes]. rewrite E.
    set (g1 := mkAttr _ _ _ _ _).
    assert (K : forall u, In u vs -> ag_demand g1 u = ag_demand g u).
    { intros u I. cbn. unfold set_node. destruct (Nat.eqb_spec u v) as [->|]; [contradiction|reflexivity]. }
    destruct (IH g1 N) as (d & p & R & A & B). { intros u I. rewrite K by exact I. apply H. right. exact I. }
    exists d, p. split; [exact R|]. split.
    + intros u [<-|I]; [|rewrite A by exact I; apply K, I]. rewrite B by exact NI. cbn. unfold set_node. rewrite Nat.eqb_refl. symmetry. exact E.
    + intros u I. cbn in I. rewrite B by tauto. cbn. unfold set_node. destruct (Nat.eqb_spec u v) as [->|]; [tauto|reflexivity].
Qed.

Definition prz (a : nxgraph) (scores : list (nat * Z)) (p : nat -> option Z) : nat -> option Z :=
  fold_left (fun p '(v, x) => if memb v (nx_nodes a) then set_node p v (Some x) else p) scores p.

Lemma set_prizes_is scores : forall g, set_prizes scores g =
  mkAttr (ag_adj g) (ag_weight g) (ag_cost g) (ag_demand g) (prz (ag_adj g) scores (ag_prize g)).
Proof.
  induction scores as [|(v, x) r IH]; intro g; [destruct g; reflexivity|].
  change (set_prizes ((v, x) :: r) g) with (set_prizes r (if memb v (nx_nodes (ag_adj g)) then
    mkAttr (ag_adj g) (ag_weight g) (ag_cost g) (ag_demand g) (set_node (ag_prize g) v (Some x)) else g)). rewrite IH.
  cbn [prz fold_left]. destruct (memb v (nx_nodes (ag_adj g))); reflexivity.
Qed.

Lemma prz_ok a scores : forall p v, vertex a v -> prz a scores p v = match scored scores v with Some x => Some x | None => p v end.
Proof.
  induction scores as [|(u, x) r IH]; intros p v V; [reflexivity|].
  cbn [prz fold_left scored]. change (fold_left _ r ?q) with (prz a r q). rewrite IH by exact V.
  destruct (scored r v) as [y|]; [reflexivity|].
  destruct (memb u (nx_nodes a)) eqn:M; unfold set_node.
  - rewrite Nat.eqb_sym. destruct (Nat.eqb u v); reflexivity.
  - destruct (Nat.eqb_spec u v) as [->|]; [|reflexivity]. exfalso. apply Bool.not_true_iff_false in M. apply M, memb_In. exact V.
Qed.

Lemma prz_empty scores p : prz [] scores p = p.
Proof. induction scores as [|(u, x) r IH]; [reflexivity|]. cbn. exact IH. Qed.

Lemma rename_prz es : forall g p, foldM step_edge es (mkAttr (ag_adj g) (ag_weight g) (ag_cost g) (ag_demand g) p) =
  (do h <- foldM step_edge es g; Ok (mkAttr (ag_adj h) (ag_weight h) (ag_cost h) (ag_demand h) p)).
Proof.
  induction es as [|(u, v) es IH]; intros g p; [reflexivity|]. cbn [foldM]. unfold step_edge at 1 3. cbn [ag_weight].
  destruct (ag_weight g u v) as [x|]; [|reflexivity]. cbn [bind]. rewrite <- IH. reflexivity.
Qed.

(** ** Costs *)

Lemma has_edge_iff g u v : NoDup (map fst g) -> has_edge g u v = true <-> adj g u v.
Proof.
  intro N. unfold has_edge, adj. split.
  - destruct (dget g u) as [l|] eqn:E; [|discriminate]. intro M. apply memb_In in M. exists l. split; [|exact M].
    revert E. clear. induction g as [|(k, a) g IH]; cbn; [discriminate|]. destruct (Nat.eqb_spec u k) as [->|]; [|auto].
    intro E. injection E as ->. auto.
  - intros (l & I & J). enough (dget g u = Some l) as -> by (apply memb_In; exact J).
    revert N I. clear. induction g as [|(k, a) g IH]; cbn; [intros _ []|]. intros N [I|I].
    + injection I as -> ->. rewrite Nat.eqb_refl. reflexivity.
    + apply NoDup_cons_iff in N as (NI & N). destruct (Nat.eqb_spec u k) as [->|]; [|auto].
      exfalso. apply NI. exact (in_map fst _ _ I).
Qed.

Lemma set_costs_ok costs : forall G, undirected (pg_adj G) -> repriced costs G (set_costs costs G).
Proof.
  induction costs as [|((a, b), x) r IH]; intros G U; [repeat split|].
  cbn [set_costs fold_left]. change (fold_left _ r ?h) with (set_costs r h).
  destruct (has_edge (pg_adj G) a b) eqn:E.
  - set (G1 := mkPy _ _ _). destruct (IH G1 U) as (A & B & C). split; [exact A|]. split; [exact B|].
    intros u v H. rewrite (C u v H). cbn [priced]. destruct (priced r u v); [reflexivity|].
    cbn. unfold set_edge. fold (meets u v a b) (meets a b u v).
    replace (meets u v a b) with (meets a b u v); [destruct (meets a b u v); reflexivity|].
    unfold meets. rewrite (Nat.eqb_sym u a), (Nat.eqb_sym v b), (Nat.eqb_sym u b), (Nat.eqb_sym v a).
    rewrite (Bool.andb_comm (Nat.eqb b u)). reflexivity.
  - destruct (IH G U) as (A & B & C). split; [exact A|]. split; [exact B|]. intros u v H. rewrite (C u v H). cbn [priced].
    destruct (priced r u v); [reflexivity|]. fold (meets a b u v). destruct (meets a b u v) eqn:M; [|reflexivity].
    exfalso. apply Bool.not_true_iff_false in E. apply E, has_edge_iff; [apply U|].
    apply meets_iff in M as [(-> & ->)|(-> & ->)]; [exact H|]. apply U, H.
Qed.
