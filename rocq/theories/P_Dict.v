(** * P_Dict: the model built from edge lists and dictionaries *)
From Verif Require Import Base Graph Spec Spec_Dict M_Walk M_Graph M_Solution M_ILP.
From Verif Require Import P_Base P_Walk P_Lookup P_Renaming.
Open Scope nat_scope.

Lemma graph_of_edges_ok edges : graph_of_edges edges (add_edges_to_graph (mkGraph 0 []) edges).
Proof.
  split; [now rewrite add_edges_ge|]. intros n. rewrite add_edges_gn. cbn [gn]. split; [tauto|].
  intros H. split; [lia|auto].
Qed.

Lemma filled_snoc {K} (is_for : K -> nat -> Prop) entries n out k z i :
  filled is_for entries n out -> i < n -> is_for k i ->
  (forall j, is_for k j -> j = i) -> filled is_for (entries ++ [(k, z)]) n (upd out i z).
Proof.
  intros [Hl Hf] Hi Hk Hu. split; [now rewrite upd_length|]. intros j y Hj.
  rewrite upd_nth in Hj by lia. destruct (Nat.eqb_spec i j) as [<-|Hne].
  - inversion Hj; subst y. right. exists entries, k, []. split; [auto|split; [auto|intros ? ? []]].
  - destruct (Hf j y Hj) as [[-> H]|(a & k0 & b & -> & H1 & H2)].
    + left. split; auto. intros k' y' Hin Hfor. apply in_app_iff in Hin as [Hin|[Hin|[]]].
      * eapply H; eauto.
      * inversion Hin; subst. apply Hne. symmetry. now apply Hu.
    + right. exists a, k0, (b ++ [(k, z)]). rewrite <- app_assoc. split; auto. split; auto.
      intros k' y' Hin Hfor. apply in_app_iff in Hin as [Hin|[Hin|[]]].
      * eapply H2; eauto.
      * inversion Hin; subst. apply Hne. symmetry. now apply Hu.
Qed.

Lemma filled_repeat {K} (is_for : K -> nat -> Prop) n : filled is_for [] n (repeat 0%Z n).
Proof.
  split; [apply repeat_length|]. intros i z Hi. left. split; [|intros ? ? []].
  apply nth_error_In, repeat_spec in Hi. auto.
Qed.

Lemma fill_prizes_ok g pd : Forall (fun e => fst e < gn g) pd ->
  exists p, fill_prizes g pd = Ok p /\ filled eq pd (gn g) p.
Proof.
  intros Hf. unfold fill_prizes. apply (foldM_inv _ (fun don p => filled eq don (gn g) p)).
  - apply filled_repeat.
  - intros don [k z] rest p -> Hp. cbn [fst snd].
    rewrite Forall_forall in Hf. assert (Hk : k < gn g).
    { apply (Hf (k, z)). apply in_app_iff. right. now left. }
    rewrite vset_ok by (rewrite (proj1 Hp); lia). eexists. split; [reflexivity|].
    apply filled_snoc; auto.
Qed.

Lemma step_fun g u v e f : step_edge g u v e -> step_edge g u v f -> f = e.
Proof. intros [H1 H2] [H3 H4]. specialize (H2 _ H3). specialize (H4 _ H1). lia. Qed.

Lemma step_lt g u v e : step_edge g u v e -> e < length (ge g).
Proof. intros [[H|H] _]; eapply nth_error_Some_lt; eauto. Qed.

Definition key_edge (g : graph) (k : nat * nat) (e : nat) : Prop := step_edge g (fst k) (snd k) e.

Lemma fill_costs_aux g cd : forall don c,
  Forall (fun e => fst (fst e) < gn g) cd -> filled (key_edge g) don (length (ge g)) c ->
  (exists c', foldM (fun c px =>
           do oe <- edge g (fst (fst px)) (snd (fst px));
           match oe with
           | None => Throw EdgeNotFoundException
           | Some e => vset c e (snd px)
           end) cd c = Ok c' /\ filled (key_edge g) (don ++ cd) (length (ge g)) c' /\
     Forall (fun e => is_edge g (fst (fst e)) (snd (fst e))) cd) \/
  (foldM (fun c px =>
           do oe <- edge g (fst (fst px)) (snd (fst px));
           match oe with
           | None => Throw EdgeNotFoundException
           | Some e => vset c e (snd px)
           end) cd c = Throw EdgeNotFoundException /\
   exists k z, In (k, z) cd /\ ~ is_edge g (fst k) (snd k)).
Proof.
  induction cd as [|[k z] cd IH]; intros don c Hf Hc.
  - left. exists c. rewrite app_nil_r. auto.
  - apply Forall_cons_iff in Hf as [Hk Hf]. cbn [foldM fst snd] in *.
    destruct (edge_total g (fst k) (snd k) Hk) as [[e|] E]; rewrite E; cbn [bind].
    + apply edge_Some in E. pose proof (step_lt _ _ _ _ E) as Hlt.
      rewrite vset_ok by (rewrite (proj1 Hc); auto). cbn [bind].
      destruct (IH (don ++ [(k, z)]) (upd c e z) Hf) as [(c' & E' & Hc' & Hall)|[E' (k' & z' & Hin & Hno)]].
      * apply filled_snoc; auto. intros j Hj. eapply step_fun; eauto.
      * left. exists c'. rewrite E', <- app_assoc in *. split; auto. split; auto. constructor; auto.
        exists e. apply E.
      * right. split; auto. exists k', z'. split; auto. now right.
    + right. split; auto. exists k, z. split; [now left|]. now apply edge_None.
Qed.

Lemma fill_costs_ok g cd : Forall (fun e => fst (fst e) < gn g) cd ->
  (exists c, fill_costs g cd = Ok c /\ filled (key_edge g) cd (length (ge g)) c /\
     Forall (fun e => is_edge g (fst (fst e)) (snd (fst e))) cd) \/
  (fill_costs g cd = Throw EdgeNotFoundException /\
   exists k z, In (k, z) cd /\ ~ is_edge g (fst k) (snd k)).
Proof. intros Hf. apply (fill_costs_aux g cd []); auto. apply filled_repeat. Qed.

Lemma dict_model g edges heur cd pd quota root : graph_of_edges edges g ->
  Forall (fun e => fst e < gn g) pd ->
  Forall (fun e => is_edge g (fst (fst e)) (snd (fst e))) cd ->
  Forall (fun e => is_edge g (fst e) (snd e)) heur ->
  exists hs c p, Forall2 (fun h e => step_edge g (fst h) (snd h) e) heur hs /\
    filled (key_edge g) cd (length edges) c /\ filled eq pd (gn g) p /\
    model_pctsp_dict edges heur cd pd quota root = model_pctsp g hs c p quota root.
Proof.
  intros Hg Hp Hc Hh. pose proof (graph_of_edges_ok edges) as [E1 E2].
  assert (Eg : add_edges_to_graph (mkGraph 0 []) edges = g).
  { destruct g as [n es], (add_edges_to_graph (mkGraph 0 []) edges) as [n' es'].
    destruct Hg as [H1 H2]. cbn in *. subst. f_equal.
    apply Nat.le_antisymm; [apply E2, H2|apply H2, E2]; lia. }
  unfold model_pctsp_dict. rewrite Eg.
  assert (Hlt : forall u v, is_edge g u v -> u < gn g).
  { intros u v [e He]. destruct Hg as [H1 H2]. assert (H : Forall (fun e => fst e < gn g /\ snd e < gn g) edges) by (apply H2; lia).
    rewrite Forall_forall in H. rewrite <- H1 in H.
    destruct He as [He|He]; apply nth_error_In, H in He; cbn in He; tauto. }
  destruct (fill_prizes_ok g pd Hp) as (p & Ep & Hpf).
  destruct (fill_costs_ok g cd) as [(c & Ec & Hcf & _)|[_ (k & z & Hin & Hno)]].
  { eapply Forall_impl; [|exact Hc]. intros a Ha. cbn in *. eauto. }
  2:{ exfalso. rewrite Forall_forall in Hc. apply Hno. apply (Hc _ Hin). }
  destruct (vertex_pairs_spec g heur) as [(hs & Eh & Hhf)|[_ (h & Hin & Hno)]].
  { eapply Forall_impl; [|exact Hh]. intros a Ha. cbn in *. eauto. }
  2:{ exfalso. rewrite Forall_forall in Hh. apply Hno. apply (Hh _ Hin). }
  exists hs, c, p. split; auto. rewrite (proj1 Hg) in Hcf. split; auto. split; auto.
  rewrite Ep. cbn [bind]. rewrite Ec. cbn [bind]. rewrite Eh. reflexivity.
Qed.

Lemma dict_model_throws g edges heur cd pd quota root : graph_of_edges edges g ->
  Forall (fun e => fst e < gn g) pd -> Forall (fun e => fst (fst e) < gn g) cd ->
  Forall (fun e => fst e < gn g) heur ->
  (exists k z, In (k, z) cd /\ ~ is_edge g (fst k) (snd k)) \/
  (exists h, In h heur /\ ~ is_edge g (fst h) (snd h)) ->
  model_pctsp_dict edges heur cd pd quota root = Throw EdgeNotFoundException.
Proof.
  intros Hg Hp Hc Hh Hbad. pose proof (graph_of_edges_ok edges) as [E1 E2].
  assert (Eg : add_edges_to_graph (mkGraph 0 []) edges = g).
  { destruct g as [n es], (add_edges_to_graph (mkGraph 0 []) edges) as [n' es'].
    destruct Hg as [H1 H2]. cbn in *. subst. f_equal.
    apply Nat.le_antisymm; [apply E2, H2|apply H2, E2]; lia. }
  unfold model_pctsp_dict. rewrite Eg.
  destruct (fill_prizes_ok g pd Hp) as (p & Ep & _). rewrite Ep. cbn [bind].
  destruct (fill_costs_ok g cd Hc) as [(c & Ec & _ & Hall)|[Ec _]]; rewrite Ec; cbn [bind]; auto.
  destruct (vertex_pairs_spec g heur Hh) as [(hs & Eh & Hhf)|[Eh _]]; rewrite Eh; cbn [bind]; auto.
  exfalso. destruct Hbad as [(k & z & Hin & Hno)|(h & Hin & Hno)].
  - rewrite Forall_forall in Hall. apply Hno. apply (Hall _ Hin).
  - destruct (Forall2_In_l' _ _ _ _ Hhf Hin) as (e & _ & He). apply Hno. exists e. apply He.
Qed.
