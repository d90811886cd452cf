(** * P_SolveBind: branch and cut in the labels of the caller *)
From Coq Require Import Permutation.
From Verif Require Import Base Graph Spec Spec_Cycle M_Walk M_Graph M_Dijkstra M_Solution M_ILP M_Subtour
  M_CycleCover M_CostCover M_Renaming M_MaxFlow M_Solve Spec_ILP Spec_Cover Spec_Flow Spec_Rename Spec_Solve.
From Verif Require Import P_Base P_Walk P_Extension P_Dijkstra P_Collapse P_Cycle P_Lookup P_Renaming P_Bindings
  P_ILP P_Solve.
Open Scope nat_scope.

Lemma Forall2_nth_r {A B} (R : A -> B -> Prop) l r i b : Forall2 R l r -> nth_error r i = Some b ->
  exists a, nth_error l i = Some a /\ R a b.
Proof.
  intros H. revert i. induction H as [|x y l r Hxy _ IH]; intros i Hi; [now rewrite nth_error_nil in Hi|].
  destruct i as [|i]; cbn in *; [inversion Hi; subst; eauto|now apply IH].
Qed.

Section BIND.
Context (G : graph) (labels : list nat) (out : list (nat * nat)).
Let g := add_edges_to_graph (mkGraph 0 []) out.
Context (HG : graph_ok G) (Hfa : first_appearance (ends (ge G)) labels) (Hnd : NoDup labels)
  (HF : Forall2 (edge_named labels) (ge G) out).

Lemma iso_trail w W es : renamed labels w W -> (trail g w es <-> trail G W es).
Proof.
  intros H. revert es. induction H as [|a u w W Ha HR IH]; intros es.
  - split; intros H; inversion H.
  - destruct HR as [|b v w W Hb HR].
    + split; intros H; inversion H; subst; constructor.
    + split; intros H; inversion H; subst; constructor; try (now apply IH);
        now apply (iso_joins G labels out Hnd HF _ a b u v).
Qed.

Lemma iso_parallel : no_parallel G -> no_parallel g.
Proof.
  intros Hp e f a b H1 H2. destruct (iso_joins_ex G labels out Hfa Hnd HF e a b H1) as (u & v & Ha & Hb).
  apply (Hp e f u v); now apply (iso_joins G labels out Hnd HF _ a b u v).
Qed.

Lemma iso_loop_free : loop_free G -> loop_free g.
Proof.
  intros Hl a [e H]. destruct (iso_joins_ex G labels out Hfa Hnd HF e a a H) as (u & v & Ha & _).
  apply (Hl u). exists e. now apply (iso_joins G labels out Hnd HF e a a u u).
Qed.

Lemma iso_bounds c R r d dd : length c = length (ge G) -> nth_error labels r = Some R -> tour_bounds G c R d ->
  (forall a u, nth_error labels a = Some u -> nth_error dd a = nth_error d u) -> tour_bounds g c r dd.
Proof.
  intros Hlc Hr Hb Hd t z v x Ht Hz Hv Hx.
  destruct (out_tour G HG labels out Hfa Hnd HF R r 2 t Hr Ht) as (T & HT & HTt & _).
  destruct (any_cost_trail g c t z Hz) as (es & Htr & ->).
  assert (HvT : exists V, nth_error labels v = Some V /\ In V T).
  { apply In_nth_error in Hv as [i Hi]. pose proof (renamed_nth labels t T HT i) as Hn. rewrite Hi in Hn.
    destruct (nth_error T i) as [V|] eqn:E; [|tauto]. exists V. split; auto. eapply nth_error_In; eauto. }
  destruct HvT as (V & HV1 & HV2).
  apply (Hb T _ V x HTt); auto.
  - apply trail_any_cost; auto. now apply (iso_trail t T es HT).
  - now rewrite <- (Hd v V HV1).
Qed.

Lemma iso_leads r R v V w W : renamed labels w W -> nth_error labels r = Some R -> nth_error labels v = Some V ->
  leads R V W -> leads r v w.
Proof.
  intros H Hr Hv [H1 H2]. destruct H as [|a u w W Ha HR]; [discriminate|]. cbn in H1. inversion H1; subst u.
  assert (a = r) by (eapply lab_inj; eauto). subst a. split; auto.
  assert (K : forall w W, renamed labels w W -> forall r R, nth_error labels r = Some R -> last W R = V -> last w r = v).
  { clear - Hnd Hv. induction 1 as [|a u w W Ha HR IH]; intros r R Hr Hl.
    - cbn in *. subst. eapply lab_inj; eauto.
    - destruct HR as [|b x w W Hb HR]; [cbn in *; subst; eapply lab_inj; eauto|]. apply (IH r R Hr). exact Hl. }
  apply (K (r :: w) (R :: W)) with (R := R); auto. constructor; auto.
Qed.

Lemma iso_reach R r : nth_error labels r = Some R ->
  (forall V, In V (ends (ge G)) -> exists W, is_walk G W /\ leads R V W) ->
  forall v, v < gn g -> exists w, is_walk g w /\ leads r v w.
Proof.
  intros Hr H v Hv. unfold g in Hv. rewrite (iso_gn G labels out Hfa Hnd HF) in Hv.
  destruct (nth_error labels v) as [V|] eqn:EV; [|apply nth_error_None in EV; lia].
  destruct (H V) as (W & HW & HL). { apply (iso_in G labels Hfa). eapply nth_error_In; eauto. }
  assert (Hin : Forall (fun u => In u labels) W).
  { assert (HR : In R labels) by (eapply nth_error_In; eauto).
    destruct W as [|R' W]; [destruct HL; discriminate|]. destruct HL as [HL _]. cbn in HL. inversion HL; subst R'.
    clear - HW HR Hfa. remember (R :: W) as X. revert R W HR HeqX. induction HW as [|u|u v w [e He] Hw IH]; intros R W HR E.
    - constructor.
    - inversion E; subst. repeat constructor; auto.
    - inversion E; subst. constructor; auto. apply (IH v w); auto.
      destruct (iso_joins_ex' G labels Hfa e R v He) as (a & b & _ & Hb). eapply nth_error_In; eauto. }
  destruct (renamed_exists' labels W Hin) as [w Hw]. exists w.
  split; [now apply (iso_walk G labels out Hnd HF w W Hw)|now apply (iso_leads r R v V w W)].
Qed.

(** the edges of the starting tour *)
Lemma iso_heur R r heur T : no_parallel G -> nth_error labels r = Some R -> heur_pairs G R heur T ->
  exists hn he t, get_new_edges (bm_of labels) heur = Ok hn /\ edges_from_vertex_pairs g hn = Ok he /\
    renamed labels t T /\ heur_of g r he t /\
    Forall2 (fun e uv => joins G e (fst uv) (snd uv)) he heur.
Proof.
  intros Hp Hr (HT & es & es' & Htr & HP & HFe).
  destruct (in_tour G HG labels out Hfa Hnd HF R 2 T HT) as (r' & t & Hr' & Ht & Htt & _).
  assert (r' = r) by (eapply lab_inj; eauto). subst r'.
  assert (Hhn : exists hn, Forall2 (edge_named labels) heur hn /\
    Forall2 (fun e ab => joins g e (fst ab) (snd ab)) es hn).
  { clear HP. induction HFe as [|e [u v] es heur He HFe (hn & H1 & H2)]; [exists []; split; constructor|].
    cbn [fst snd] in He. destruct (iso_joins_ex' G labels Hfa e u v He) as (a & b & Ha & Hb).
    exists ((a, b) :: hn). split; constructor; auto; [now split|]. cbn [fst snd]. now apply (iso_joins G labels out Hnd HF e a b u v). }
  destruct Hhn as (hn & H1 & H2).
  assert (He : edges_from_vertex_pairs g hn = Ok es).
  { destruct (vertex_pairs_spec g hn) as [(es2 & E2 & HF2)|(_ & p & Hin & Hne)].
    - clear - H2 HF Hfa Hnd. induction H2 as [|e [a b] es hn He _ IH]; constructor; auto. cbn [fst].
      apply (is_edge_range g a b). { apply (iso_ok G labels out Hfa Hnd HF). } now exists e.
    - rewrite E2. f_equal. pose proof (iso_parallel Hp) as Hpg. clear - H2 HF2 Hpg. revert es2 HF2.
      induction H2 as [|e [a b] es hn He _ IH]; intros es2 HF2; inversion HF2; subst; auto.
      f_equal; [|now apply IH]. match goal with H : step_edge _ _ _ _ |- _ => destruct H as [Hj _] end.
      exact (Hpg _ _ a b Hj He).
    - exfalso. apply Hne. destruct (Forall2_In_r' _ _ _ _ H2 Hin) as (e & _ & He). now exists e. }
  exists hn, es, t. split; [now apply get_new_edges_ok|]. split; auto. split; auto. split; [|exact HFe].
  split; auto. exists es'. split; [now apply (iso_trail t T es' Ht)|exact HP].
Qed.

Lemma iso_edges t T r : renamed labels t T -> edges_of_tour g t r ->
  exists o, get_old_edges (bm_of labels) r = Ok o /\ edges_of_tour G T o.
Proof.
  intros Ht (es & es' & Htr & HP & HFe).
  assert (Ho : exists o, Forall2 (edge_named labels) o r /\ Forall2 (fun e uv => nth_error (ge G) e = Some uv) es o).
  { clear HP. induction HFe as [|e ab es r He _ (o & H1 & H2)]; [exists []; split; constructor|].
    unfold g in He. rewrite (iso_ge out) in He.
    assert (Hx : exists uv, nth_error (ge G) e = Some uv /\ edge_named labels uv ab).
    { exact (Forall2_nth_r _ _ _ _ _ HF He). }
    destruct Hx as (uv & Huv & Hnm). exists (uv :: o). split; constructor; auto. }
  destruct Ho as (o & H1 & H2). exists o. split; [now apply get_old_edges_ok|].
  exists es, es'. split; auto. now apply (iso_trail t T es' Ht).
Qed.

Section FEAS.
Context (c p q : list Z) (quota : Z) (R r : nat).
Context (Hr : nth_error labels r = Some R)
  (Hq : forall a u, nth_error labels a = Some u -> nth_error q a = nth_error p u).

Lemma iso_quota t T : renamed labels t T -> (meets_quota q quota t <-> meets_quota p quota T).
Proof.
  intros Ht. split; intros (z & H1 & H2); exists z; split; auto; now apply (in_prize p labels q Hq t T z Ht).
Qed.

Lemma iso_feasible t T z : renamed labels t T ->
  (feasible_tour g c q quota r t z <-> feasible_tour G c p quota R T z).
Proof.
  intros Ht. unfold feasible_tour. rewrite (iso_quota t T Ht).
  pose proof (iso_closed G labels out Hfa Hnd HF HG r R 2 t T Hr Ht) as H1.
  pose proof (iso_cost G labels out Hnd HF c t T z Ht) as H2.
  change (closed_tour g r 2 t <-> closed_tour G R 2 T) in H1. change (walk_cost g c t z <-> walk_cost G c T z) in H2.
  unfold closed_tour in H1. unfold tour_from. tauto.
Qed.

Lemma iso_feasible_in T z : feasible_tour G c p quota R T z -> exists t, feasible_tour g c q quota r t z.
Proof.
  intros H. destruct (in_tour G HG labels out Hfa Hnd HF R 2 T (proj1 H)) as (r' & t & _ & Ht & _).
  exists t. now apply (iso_feasible t T z Ht).
Qed.

Lemma iso_feasible_out t z : feasible_tour g c q quota r t z ->
  exists T, renamed labels t T /\ feasible_tour G c p quota R T z.
Proof.
  intros H. destruct (out_tour G HG labels out Hfa Hnd HF R r 2 t Hr (proj1 H)) as (T & HT & _).
  exists T. split; auto. now apply (iso_feasible t T z HT).
Qed.

Lemma iso_optimal t T z : renamed labels t T -> optimal_tour g c q quota r t z -> optimal_tour G c p quota R T z.
Proof.
  intros Ht [H1 H2]. split; [now apply (iso_feasible t T z Ht)|]. intros T' z' H'.
  destruct (iso_feasible_in T' z' H') as [t' Ht']. eauto.
Qed.
End FEAS.
End BIND.

Theorem py_solve_whole tb fl mf G cd pd dd c p d n C P quota root heur :
  good_pick tb -> (forall d s t, length (snd (mf d s t)) = length (n_arcs d)) ->
  call_with G cd pd c p n -> prizes_given G dd d -> no_parallel G -> loop_free G ->
  costs_within G c 0 C -> (0 <= C)%Z -> (2 * (Z.of_nat n * C) < int_max)%Z ->
  prizes_within G p 0 P -> (Z.of_nat n * P <= int_max)%Z -> (- int_max <= quota <= int_max)%Z ->
  In root (ends (ge G)) -> (Z.of_nat (length (ge G) + n) <= 1000000000)%Z ->
  (heur = [] \/ exists T, heur_pairs G root heur T) ->
  (fl_disjoint_paths fl = true -> tour_bounds G c root d) ->
  (fl_shortest_path fl = true -> forall v, In v (ends (ge G)) -> exists w, is_walk G w /\ leads root v w) ->
  exists bm m st q r, py_solve_start tb fl (ge G) heur cd pd quota root dd = Ok (bm, m, st, q, r) /\
    forall entries cbs sols, var_entries (i_graph m) entries ->
      scip_run m (accepted fl (i_graph m) q quota r entries) cbs sols ->
      exists st' out, py_solve tb fl mf (ge G) heur cd pd quota root dd entries cbs sols = Ok (st', out) /\
        ((sols = [] /\ out = []) \/
         exists T z, feasible_tour G c p quota root T z /\ edges_of_tour G T out) /\
        ((forall T, heur_pairs G root heur T -> meets_quota p quota T) ->
         scip_finished m (accepted fl (i_graph m) q quota r entries) (bc_rows st) (bc_rows st') sols ->
         (exists T z, optimal_tour G c p quota root T z /\ edges_of_tour G T out) \/
         (out = [] /\ forall T z, ~ feasible_tour G c p quota root T z)).
Proof.
  intros Htb Hmf (HG & Hcg & Hpg & Hn) Hdg Hpar Hlf Hc HC HCm Hpr HPm Hquota Hroot Hsize Hheur Hdp Hsp.
  destruct (bind_setup G cd pd c p n Hcg Hpg Hn) as (labels & out & q & Eren & Hfa & Hnd & HF & Hgn & Hgok & Hlen & Efill & Hq & Hql).
  set (g := add_edges_to_graph (mkGraph 0 []) out) in *.
  assert (Hrl : In root labels) by now apply (iso_in G labels Hfa).
  apply In_nth_error in Hrl as [r Hr].
  destruct (fill_prize_ok G labels out Hfa Hnd HF dd d Hdg) as (ds & Eds & Hdl & Hds). fold g in Eds, Hdl.
  assert (Hc' : costs_within g c 0 C) by (apply (in_costs G c 0 C Hc labels out HF)).
  assert (Hp' : prizes_within g q 0 P) by (apply (in_prizes G p n 0 P Hpr labels out q Hfa Hnd HF Hq); auto).
  assert (Hhx : exists hn he, get_new_edges (bm_of labels) heur = Ok hn /\ edges_from_vertex_pairs g hn = Ok he /\
    (he = [] \/ exists t, heur_of g r he t) /\
    ((forall T, heur_pairs G root heur T -> meets_quota p quota T) -> forall t, heur_of g r he t -> meets_quota q quota t)).
  { destruct Hheur as [->|[T HT]].
    - exists [], []. split; [reflexivity|]. split; [reflexivity|]. split; auto.
      intros _ t ((vs & -> & _) & es & Htr & HP). apply Permutation_nil in HP. subst. inversion Htr; subst.
      destruct vs; discriminate.
    - destruct (iso_heur G labels out HG Hfa Hnd HF root r heur T Hpar Hr HT) as (hn & he & t & E1 & E2 & Ht & Hh & HFh).
      exists hn, he. split; auto. split; auto. split; [right; eauto|].
      intros Hall t' (Ht' & es & Htr & HP).
      destruct (out_tour G HG labels out Hfa Hnd HF root r 2 t' Hr Ht') as (T' & HT' & HTt' & _).
      apply (iso_quota labels p q quota Hq t' T' HT'). apply Hall. split; auto. exists he, es.
      split; [now apply (iso_trail G labels out Hnd HF t' T' es HT')|]. auto. }
  destruct Hhx as (hn & he & E1 & E2 & Hhe & Hhq).
  destruct (solve_whole tb fl mf g c q C P quota r he ds) as (m & st & Es & Em & Hrun); auto.
  - now apply (iso_parallel G labels out Hfa Hnd HF).
  - now apply (iso_loop_free G labels out Hfa Hnd HF).
  - rewrite Hgn. auto.
  - rewrite Hgn. auto.
  - unfold g. rewrite (iso_gn G labels out Hfa Hnd HF). eapply nth_error_Some_lt; eauto.
  - rewrite Hlen, Hgn. auto.
  - intros E. split; auto. apply (iso_bounds G labels out HG Hfa Hnd HF c root r d ds); auto. apply Hc.
  - intros E. apply (iso_reach G labels out Hfa Hnd HF root r Hr); auto.
  - assert (Est : py_solve_start tb fl (ge G) heur cd pd quota root dd = Ok (bm_of labels, m, st, q, r)).
    { unfold py_solve_start. rewrite Eren. fold g. rewrite E1. cbn [bind]. rewrite E2. cbn [bind].
      rewrite (get_new_ok labels r root Hnd Hr). cbn [bind]. rewrite Efill. cbn [bind].
      unfold num_vertices. rewrite Eds. cbn [bind]. rewrite Es. reflexivity. }
    exists (bm_of labels), m, st, q, r. split; auto. intros entries cbs sols Hent Hr0.
    destruct (Hrun entries cbs sols Hent Hr0) as (st' & res & Ef & Hres & Hopt).
    unfold py_solve. rewrite Est. cbn [bind]. rewrite Ef. cbn [bind].
    assert (Hout : exists o, get_old_edges (bm_of labels) res = Ok o /\ (res = [] -> o = []) /\
      forall t T, renamed labels t T -> edges_of_tour g t res -> edges_of_tour G T o).
    { destruct Hres as [[_ ->]|(t & z & Hfe & Hed)].
      - exists []. split; [reflexivity|]. split; auto. intros t T Ht Hed.
        destruct (iso_edges G labels out Hnd HF t T [] Ht Hed) as (o & Eo & Ho). cbn in Eo. inversion Eo; subst. auto.
      - destruct (iso_feasible_out G labels out HG Hfa Hnd HF c p q quota root r Hr Hq t z Hfe) as (T & HT & _).
        destruct (iso_edges G labels out Hnd HF t T res HT Hed) as (o & Eo & Ho). exists o. split; auto. split.
        + intros ->. cbn in Eo. inversion Eo; auto.
        + intros t' T' HT' Hed'. destruct (iso_edges G labels out Hnd HF t' T' res HT' Hed') as (o' & Eo' & Ho').
          rewrite Eo in Eo'. inversion Eo'; subst; auto. }
    destruct Hout as (o & Eo & Hnil & Ho). exists st', o. rewrite Eo. cbn [bind]. split; auto. split.
    + destruct Hres as [[-> ->]|(t & z & Hfe & Hed)]; [left; auto|]. right.
      destruct (iso_feasible_out G labels out HG Hfa Hnd HF c p q quota root r Hr Hq t z Hfe) as (T & HT & HfT).
      exists T, z. eauto.
    + intros Hall Hfin. destruct (Hopt (Hhq Hall) Hfin) as [(t & z & Hot & Hed)|[Hr1 Hno]].
      * left. destruct (iso_feasible_out G labels out HG Hfa Hnd HF c p q quota root r Hr Hq t z (proj1 Hot)) as (T & HT & _).
        exists T, z. split; eauto. now apply (iso_optimal G labels out HG Hfa Hnd HF c p q quota root r Hr Hq t T z).
      * right. split; auto. intros T z HfT.
        destruct (iso_feasible_in G labels out HG Hfa Hnd HF c p q quota root r Hr Hq T z HfT) as [t Ht].
        exact (Hno t z Ht).
Qed.
