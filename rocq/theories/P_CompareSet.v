(** * P_CompareSet: the settings and instances of the experiments *)
From Coq Require Import String Lia.
From Verif Require Import Base M_Python M_PyWrap M_RunAlg M_Compare Spec_Compare P_Base P_Compare.
Open Scope nat_scope.

Lemma ok_inj {A} (x y : A) : Ok x = Ok y -> x = y.
Proof. congruence. Qed.

Lemma vials_pairs uuid data params :
  map (fun v => (fv_data v, fv_params v)) (product_of_vials uuid data params experiment_preprocessing) =
  flat_map (fun x => map (pair x) params) data.
Proof.
  transitivity (map (fun c => (fst (fst c), snd (fst c))) (map combo (product_of_vials uuid data params experiment_preprocessing))).
  { rewrite map_map. apply map_ext. intros v. reflexivity. }
  rewrite vials_combo. unfold product3. induction data as [|x data IH]; [reflexivity|].
  cbn [flat_map]. rewrite map_app, IH. apply (f_equal2 (@app _)); [|reflexivity]. clear.
  induction params as [|y params IH]; [reflexivity|]. cbn in *. now rewrite IH.
Qed.

Lemma tsp_instances F al kl gl nl cl : ~ In (Some 0%Z) kl -> forall x,
  In x (product_of_tspwplib_data_config F al kl gl nl cl) <-> tsp_instance F al kl gl nl cl x.
Proof.
  intros NZ x. rewrite tsp_in. unfold tsp_instance.
  assert (K : forall k, In k kl -> or_none k = k).
  { intros [z|] I; [|reflexivity]. cbn. destruct (Z.eqb_spec z 0) as [->|]; [contradiction|reflexivity]. }
  split.
  - intros (a & k & g & n & c & H1 & H2 & H3 & H4 & H5 & ->). exists a, k, g, n, c. rewrite (K k H2).
    repeat (split; [assumption|]). reflexivity.
  - intros (a & k & g & n & c & H1 & H2 & H3 & H4 & H5 & ->). exists a, k, g, n, c. rewrite (K k H2).
    repeat (split; [assumption|]). reflexivity.
Qed.

Lemma laq_instances F ql nl x : In x (product_of_londonaq_data_config F ql nl) <->
  exists quota name, In quota ql /\ In name nl /\ x = mkData Londonaq (laq_cost F name) name quota (laq_root F name) None None None None.
Proof.
  unfold product_of_londonaq_data_config. rewrite in_map_iff. split.
  - intros ((q, n) & <- & I). apply product2_in in I as (A & B). exists q, n. auto.
  - intros (q & n & A & B & ->). exists (q, n). split; [reflexivity|]. now apply product2_in.
Qed.

Lemma laq_alpha_instances F al nl x : In x (product_of_londonaq_data_config_from_alpha F al nl) <->
  exists alpha name, In alpha al /\ In name nl /\
    x = mkData Londonaq (laq_cost F name) name (laq_quota F name alpha) (laq_root F name) (Some alpha) None None None.
Proof.
  unfold product_of_londonaq_data_config_from_alpha. rewrite in_map_iff. split.
  - intros ((q, n) & <- & I). apply product2_in in I as (A & B). exists q, n. auto.
  - intros (q & n & A & B & ->). exists (q, n). split; [reflexivity|]. now apply product2_in.
Qed.

Lemma experiment_settings F uuid d e vs : experiment_vials F uuid d e = Ok vs ->
  exists data, map (fun v => (fv_data v, fv_params v)) vs = flat_map (fun x => map (pair x) (settings e)) data /\
    forall x, In x data <-> instance_of F d e x.
Proof.
  intros E.
  unfold experiment_vials, experiment_function in E.
  destruct d, e; cbv beta iota zeta delta [in_tsplib_lookup in_londonaq_lookup] in E; try discriminate E; apply ok_inj in E; subst vs;
    rewrite vials_pairs; (eexists; split; [reflexivity|]); intros x; cbn [instance_of];
    unfold shared_data;
    first [ apply tsp_instances; cbn; intuition discriminate | apply laq_instances | apply laq_alpha_instances | idtac ].
  (* dryrun on londonaq *)
  rewrite laq_instances. split.
  - intros (q & n & [<-|[]] & [<-|[]] & ->). reflexivity.
  - intros ->. exists 200%Z, "laqtinyA"%string. cbn. auto.
Qed.

Lemma command_settings a bd cp cc1 cc2 h pdl ss gap tail tl :
  let tsplib a := tsplib_params a bd cp cc1 cc2 h pdl ss gap tail tl in
  let exact heur start bd tail gap := mkFull (mkModel true false heur start (Some cc1) (Some cc2) (Some true) (Some true)
    (Some bd) (Some 2%Z) (Some tail) (Some 1%Z) (Some gap) (Some tl)) false in
  (h = Some BfsExtensionCollapse ->
    tsplib SolvePctsp = exact (mkParams SolvePctsp (Some cp) (Some pdl) (Some ss)) h bd tail gap) /\
  (h <> Some BfsExtensionCollapse -> tsplib SolvePctsp = exact (mkParams SolvePctsp None None None) h bd tail gap) /\
  londonaq_params SolvePctsp cc1 cc2 tl = exact (mkParams SolvePctsp None None None) None 1%Z (-1)%Z 1%Z /\
  (implemented a \/ a = Extension ->
    (a = BfsExtensionCollapse -> tsplib a = heuristic_setting a (Some cp) (Some pdl) (Some ss)) /\
    (a <> BfsExtensionCollapse -> tsplib a = heuristic_setting a None None None) /\
    londonaq_params a cc1 cc2 tl = heuristic_setting a None None None) /\
  tsplib DisjointToursRelaxation = relaxation_setting DisjointToursRelaxation /\
  londonaq_params DisjointToursRelaxation cc1 cc2 tl = relaxation_setting DisjointToursRelaxation.
Proof.
  cbn zeta. split; [intros ->; reflexivity|]. split.
  { intros N. destruct h as [h|]; [destruct h; try reflexivity; congruence|reflexivity]. }
  split; [reflexivity|]. split; [|split; reflexivity].
  intros I. unfold implemented in I. cbn in I. destruct a; try (exfalso; intuition discriminate); (split; [intros K|split; [intros K|]]); try reflexivity; try discriminate; congruence.
Qed.
