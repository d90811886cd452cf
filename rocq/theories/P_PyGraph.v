(** * P_PyGraph: proofs about the maps from Python objects *)
From Verif Require Import Base Graph P_Base P_Check M_Walk M_Graph M_Renaming M_PyGraph Spec Spec_Rename Spec_PyGraph P_Renaming.
Open Scope nat_scope.

Lemma extract_fits z : fits z -> extract_int z = Ok z.
Proof.
  unfold fits, extract_int, int_min, int_max. intros H.
  replace (_ && _) with true; [reflexivity|]. symmetry. apply andb_true_intro. split; apply Z.leb_le; lia.
Qed.

Lemma extract_not z : ~ fits z -> extract_int z = Throw TypeErrorPy.
Proof.
  unfold fits, extract_int, int_min, int_max. intros H.
  destruct (Z.leb_spec (-2147483648) z), (Z.leb_spec z 2147483647); cbn; try reflexivity. exfalso. apply H. lia.
Qed.

Lemma assigned_nil p : assigned p [] p.
Proof. repeat split; auto. intros b i z a E. destruct b; discriminate. Qed.

Lemma assigned_cons p i z l q : i < length p -> assigned (upd p i z) l q -> assigned p ((i, z) :: l) q.
Proof.
  intros L (E & A & B). rewrite upd_length in E. split; [exact E|]. split.
  - intros b j y a H N. destruct b as [|x b]; cbn in H; injection H; intros; subst.
    + rewrite B by assumption. now apply upd_same.
    + eapply A; eauto.
  - intros j N. cbn in N. rewrite B by tauto. apply upd_other. tauto.
Qed.

Lemma prizes_ok d : forall p, Forall (fun kv => fst kv < length p /\ fits (snd kv)) d ->
  exists q, fill_prizes p d = Ok q /\ assigned p d q.
Proof.
  induction d as [|[v z] d IH]; intros p H.
  - exists p. split; [reflexivity|apply assigned_nil].
  - inversion H as [|? ? [H1 H2] H3]; subst; cbn in H1, H2. destruct (IH (upd p v z)) as (q & E & A). { rewrite upd_length. exact H3. }
    exists q. split; [|now apply assigned_cons].
    unfold fill_prizes in *. cbn [foldM fst snd]. rewrite extract_fits by assumption. cbn [bind].
    rewrite vset_ok by assumption. cbn [bind]. exact E.
Qed.

Lemma prizes_stop p a v z b : Forall (fun kv => fst kv < length p /\ fits (snd kv)) a ->
  (~ fits z -> fill_prizes p (a ++ (v, z) :: b) = Throw TypeErrorPy) /\
  (fits z -> length p <= v -> fill_prizes p (a ++ (v, z) :: b) = UB VecOOB).
Proof.
  intros H. destruct (prizes_ok a p H) as (q & E & (L & _)). unfold fill_prizes in *.
  rewrite foldM_app, E. cbn [bind foldM fst snd]. split; intros F.
  - rewrite extract_not by assumption. reflexivity.
  - intros LE. rewrite extract_fits by assumption. cbn [bind]. unfold vset.
    destruct (Nat.ltb_spec v (length q)); [lia|]. reflexivity.
Qed.

Lemma step_range g u v e : graph_ok g -> step_edge g u v e -> u < gn g /\ e < length (ge g).
Proof.
  intros G S. destruct S as [[J|J] _].
  - split; [apply (G u v); eapply nth_error_In; eauto|]. apply nth_error_Some. congruence.
  - split; [apply (G v u); eapply nth_error_In; eauto|]. apply nth_error_Some. congruence.
Qed.

Lemma costs_ok g : graph_ok g -> forall d l, cost_places g d l -> Forall (fun kv => fits (snd kv)) d ->
  forall c, length c = length (ge g) -> exists c', fill_costs g c d = Ok c' /\ assigned c l c'.
Proof.
  intros G d l H. induction H as [|[[u v] z] [e y] d l [S E] H IH]; intros F c L.
  - exists c. split; [reflexivity|apply assigned_nil].
  - cbn in S, E. subst y. inversion F as [|? ? F1 F2]; subst. cbn in F1.
    destruct (step_range g u v e G S) as [R1 R2].
    destruct (IH F2 (upd c e z)) as (c' & E & A). { now rewrite upd_length. }
    exists c'. split; [|apply assigned_cons; [lia|exact A]].
    unfold fill_costs in *. cbn [foldM fst snd]. rewrite extract_fits by assumption. cbn [bind].
    unfold edge at 1. apply find_edge_step in S. rewrite S. apply Nat.ltb_lt in R1. rewrite R1. cbn [bind].
    rewrite vset_ok by lia. cbn [bind]. exact E.
Qed.

Lemma costs_stop g c a l u v z b : graph_ok g -> length c = length (ge g) -> cost_places g a l ->
  Forall (fun kv => fits (snd kv)) a ->
  (~ fits z -> fill_costs g c (a ++ ((u, v), z) :: b) = Throw TypeErrorPy) /\
  (fits z -> u < gn g -> ~ is_edge g u v -> fill_costs g c (a ++ ((u, v), z) :: b) = Throw EdgeNotFoundException) /\
  (fits z -> gn g <= u -> fill_costs g c (a ++ ((u, v), z) :: b) = UB VecOOB).
Proof.
  intros G L P F. destruct (costs_ok g G a l P F c L) as (c' & E & _). unfold fill_costs in *.
  rewrite foldM_app, E. cbn [bind foldM fst snd]. split; [|split]; intros Z.
  - rewrite extract_not by assumption. reflexivity.
  - intros U N. rewrite extract_fits by assumption. cbn [bind]. unfold edge. apply Nat.ltb_lt in U. rewrite U. cbn [bind].
    destruct (find_edge (ge g) 0 u v) as [e|] eqn:EF; [|reflexivity].
    exfalso. apply N. apply find_edge_step in EF as [J _]. now exists e.
  - intros U. rewrite extract_fits by assumption. cbn [bind]. unfold edge. destruct (Nat.ltb_spec u (gn g)); [lia|]. reflexivity.
Qed.

(** ** With a lookup *)
Section Lookup.
Context (labels : list nat) (ND : NoDup labels).
Local Notation bm := (bm_of labels).

Lemma prizes_lookup d d' : same_prizes labels d d' -> forall p, fill_prizes_lookup p d bm = fill_prizes p d'.
Proof.
  induction 1 as [|[o z] [n y] d d' [H1 H2] H IH]; intros p; [reflexivity|]. cbn in H1, H2. subst y.
  unfold fill_prizes_lookup, fill_prizes in *. cbn [foldM fst snd].
  destruct (extract_int z); cbn [bind]; auto. rewrite (get_new_ok labels n o ND H1). cbn [bind].
  destruct (vset p n a); cbn [bind]; auto.
Qed.

Lemma costs_lookup g d d' : same_costs labels d d' -> forall c, fill_costs_lookup g c d bm = fill_costs g c d'.
Proof.
  induction 1 as [|[[o o'] z] [[n n'] y] d d' (H1 & H2 & H3) H IH]; intros c; [reflexivity|]. cbn in H1, H2, H3. subst y.
  unfold fill_costs_lookup, fill_costs in *. cbn [foldM fst snd].
  destruct (extract_int z); cbn [bind]; auto.
  rewrite (get_new_ok labels n o ND H1), (get_new_ok labels n' o' ND H2). cbn [bind].
  destruct (edge g n n') as [[e|]| | |]; cbn [bind]; auto. destruct (vset c e a); cbn [bind]; auto.
Qed.

Lemma prizes_unknown p a a' q o z b : same_prizes labels a a' -> fill_prizes p a' = Ok q -> fits z -> ~ In o labels ->
  fill_prizes_lookup p (a ++ (o, z) :: b) bm = UB IterPastEnd.
Proof.
  intros S E F N. rewrite <- (prizes_lookup a a' S) in E. unfold fill_prizes_lookup in *. rewrite foldM_app, E.
  cbn [bind foldM fst snd]. rewrite extract_fits by assumption. cbn [bind].
  rewrite (get_new_unknown labels o ND N). reflexivity.
Qed.

Lemma costs_unknown g c a a' q o o' z b : same_costs labels a a' -> fill_costs g c a' = Ok q -> fits z ->
  ~ In o labels \/ ~ In o' labels -> fill_costs_lookup g c (a ++ ((o, o'), z) :: b) bm = UB IterPastEnd.
Proof.
  intros S E F N. rewrite <- (costs_lookup g a a' S) in E. unfold fill_costs_lookup in *. rewrite foldM_app, E.
  cbn [bind foldM fst snd]. rewrite extract_fits by assumption. cbn [bind].
  destruct (in_dec Nat.eq_dec o labels) as [I|I].
  - apply In_nth_error in I as (n & I). rewrite (get_new_ok labels n o ND I). cbn [bind].
    rewrite (get_new_unknown labels o' ND); [reflexivity|]. destruct N as [N|N]; [|exact N].
    exfalso. apply N. eapply nth_error_In; eauto.
  - rewrite (get_new_unknown labels o ND I). reflexivity.
Qed.

Lemma py_list_ok ns vs : renamed labels ns vs -> forall l,
  foldM (fun l v => do o <- get_old_vertex bm v; Ok (l ++ [o])) ns l = Ok (l ++ vs).
Proof.
  unfold renamed. induction 1 as [|n v ns vs H _ IH]; intros l; [now rewrite app_nil_r|]. cbn [foldM].
  rewrite (get_old_ok labels n v H). cbn [bind]. rewrite IH. now rewrite <- app_assoc.
Qed.

Lemma boost_list_ok ns vs : renamed labels ns vs -> forall l,
  foldM (fun l v => do o <- get_new_vertex bm v; Ok (l ++ [o])) vs l = Ok (l ++ ns).
Proof.
  unfold renamed. induction 1 as [|n v ns vs H _ IH]; intros l; [now rewrite app_nil_r|]. cbn [foldM].
  rewrite (get_new_ok labels n v ND H). cbn [bind]. rewrite IH. now rewrite <- app_assoc.
Qed.

Lemma boost_unknown ns vs o rest : renamed labels ns vs -> ~ In o labels ->
  get_boost_vertex_list bm (vs ++ o :: rest) = UB IterPastEnd.
Proof.
  intros R N. unfold get_boost_vertex_list. rewrite foldM_app, (boost_list_ok ns vs R). cbn [bind foldM].
  now rewrite (get_new_unknown labels o ND N).
Qed.

Lemma py_unknown ns vs n rest : renamed labels ns vs -> length labels <= n ->
  get_py_vertex_list bm (ns ++ n :: rest) = UB IterPastEnd.
Proof.
  intros R N. unfold get_py_vertex_list. rewrite foldM_app, (py_list_ok ns vs R). cbn [bind foldM].
  unfold get_old_vertex. rewrite find_left_bm. apply nth_error_None in N. now rewrite N.
Qed.
End Lookup.

(** ** The graph *)
Lemma graph_ok_of es : exists labels bm g, graph_from_py_edge_list [] es = (bm, g) /\ first_appearance (ends es) labels /\
  gn g = length labels /\ renamed labels (ends (ge g)) (ends es) /\ length (ge g) = length es /\ graph_ok g /\
  (forall p d d', same_prizes labels d d' -> fill_prizes_lookup p d bm = fill_prizes p d') /\
  (forall c d d', same_costs labels d d' -> fill_costs_lookup g c d bm = fill_costs g c d') /\
  (forall ns vs, renamed labels ns vs -> get_py_vertex_list bm ns = Ok vs /\ get_boost_vertex_list bm vs = Ok ns).
Proof.
  destruct (rename_edges_ok es) as (out & E & ND & F).
  set (labels := labels_of (ends es)) in *.
  assert (FA : first_appearance (ends (ge (mkGraph 0 es))) labels) by apply labels_first.
  exists labels, (bm_of labels), (add_edges_to_graph (mkGraph 0 []) out).
  split. { unfold graph_from_py_edge_list. rewrite E. reflexivity. }
  split; [exact FA|]. split; [exact (iso_gn (mkGraph 0 es) labels out FA ND F)|].
  split. { rewrite add_edges_ge. cbn [ge app]. now apply edge_named_ends. }
  split; [exact (iso_len (mkGraph 0 es) labels out F)|].
  split; [exact (iso_ok (mkGraph 0 es) labels out FA ND F)|].
  split. { intros p d d' S. now apply prizes_lookup. }
  split. { intros c d d' S. now apply costs_lookup. }
  intros ns vs R. split; [exact (py_list_ok labels ns vs R [])|exact (boost_list_ok labels ND ns vs R [])].
Qed.

Lemma unknown_names es : exists labels bm g, graph_from_py_edge_list [] es = (bm, g) /\ first_appearance (ends es) labels /\
  (forall p a a' q o z b, same_prizes labels a a' -> fill_prizes p a' = Ok q -> fits z -> ~ In o (ends es) ->
     fill_prizes_lookup p (a ++ (o, z) :: b) bm = UB IterPastEnd) /\
  (forall c a a' q o o' z b, same_costs labels a a' -> fill_costs g c a' = Ok q -> fits z -> ~ In o (ends es) \/ ~ In o' (ends es) ->
     fill_costs_lookup g c (a ++ ((o, o'), z) :: b) bm = UB IterPastEnd) /\
  (forall ns vs o rest, renamed labels ns vs -> ~ In o (ends es) -> get_boost_vertex_list bm (vs ++ o :: rest) = UB IterPastEnd) /\
  (forall ns vs n rest, renamed labels ns vs -> length labels <= n -> get_py_vertex_list bm (ns ++ n :: rest) = UB IterPastEnd).
Proof.
  destruct (rename_edges_ok es) as (out & E & ND & F).
  set (labels := labels_of (ends es)) in *.
  assert (FA : first_appearance (ends es) labels) by apply labels_first. pose proof FA as (_ & I & _).
  exists labels, (bm_of labels), (add_edges_to_graph (mkGraph 0 []) out).
  split. { unfold graph_from_py_edge_list. rewrite E. reflexivity. }
  split; [exact FA|]. split; [|split; [|split]].
  - intros p a a' q o z b S EQ FZ N. eapply prizes_unknown; eauto. now rewrite I.
  - intros c a a' q o o' z b S EQ FZ N. eapply costs_unknown; eauto. now rewrite !I.
  - intros ns vs o rest R N. eapply boost_unknown; eauto. now rewrite I.
  - intros ns vs n rest R N. eapply py_unknown; eauto.
Qed.

(** ** Compared with the bindings that are used *)
Lemma prizes_bindings d bm : Forall (fun kv => fits (snd kv)) d -> forall p, fill_prizes_lookup p d bm = fill_vertex_map p d bm.
Proof.
  induction 1 as [|[o z] d H _ IH]; intros p; [reflexivity|]. unfold fill_prizes_lookup, fill_vertex_map in *. cbn [foldM fst snd] in *.
  rewrite extract_fits by assumption. cbn [bind]. destruct (get_new_vertex bm o); cbn [bind]; auto. destruct (vset p a z); cbn [bind]; auto.
Qed.

Lemma costs_bindings g d bm : Forall (fun kv => fits (snd kv)) d -> forall c, fill_costs_lookup g c d bm = fill_cost_map g c d bm.
Proof.
  induction 1 as [|[[o o'] z] d H _ IH]; intros c; [reflexivity|]. unfold fill_costs_lookup, fill_cost_map in *. cbn [foldM fst snd] in *.
  rewrite extract_fits by assumption. cbn [bind]. destruct (get_new_vertex bm o); cbn [bind]; auto.
  destruct (get_new_vertex bm o'); cbn [bind]; auto. destruct (edge g a a0) as [[e|]| | |]; cbn [bind]; auto.
  destruct (vset c e z); cbn [bind]; auto.
Qed.
