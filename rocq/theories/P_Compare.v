(** * P_Compare: lemmas for C62 *)
From Coq Require Import Lia String.
From Verif Require Import Base Spec_RunAlg M_Python M_PyWrap M_RunAlg M_Compare Spec_PyWrap Spec_Compare P_Base.
Open Scope nat_scope.

Lemma nth_flat_const {A B} (f : A -> list B) n l : (forall x, List.length (f x) = n) -> forall i x j,
  nth_error l i = Some x -> j < n -> nth_error (flat_map f l) (i * n + j) = nth_error (f x) j.
Proof.
  intros F. induction l as [|y l IH]; intros i x j H L.
  - destruct i; discriminate.
  - cbn [flat_map]. destruct i as [|i].
    + cbn in H. injection H as ->. rewrite nth_error_app1; [reflexivity|rewrite F; cbn; lia].
    + rewrite nth_error_app2; rewrite F; [|cbn; lia]. replace (S i * n + j - n) with (i * n + j) by (cbn; lia). apply IH; auto.
Qed.

Lemma length_flat_const {A B} (f : A -> list B) n l : (forall x, List.length (f x) = n) -> List.length (flat_map f l) = List.length l * n.
Proof. intros F. induction l; cbn; [reflexivity|]. rewrite app_length, F, IHl. reflexivity. Qed.

Lemma product2_length {A B} (a : list A) (b : list B) : List.length (product2 a b) = List.length a * List.length b.
Proof. apply length_flat_const. intros. apply map_length. Qed.

Lemma product3_length {A B C} (a : list A) (b : list B) (c : list C) :
  List.length (product3 a b c) = List.length a * (List.length b * List.length c).
Proof. apply length_flat_const. intros. apply length_flat_const. intros. apply map_length. Qed.

Lemma product2_nth {A B} (a : list A) (b : list B) i j x y : nth_error a i = Some x -> nth_error b j = Some y ->
  nth_error (product2 a b) (i * List.length b + j) = Some (x, y).
Proof.
  intros X Y. unfold product2. erewrite nth_flat_const; [|intros; apply map_length|exact X|apply nth_error_Some; congruence].
  apply map_nth_error. exact Y.
Qed.

Lemma product3_nth {A B C} (a : list A) (b : list B) (c : list C) i j k x y z :
  nth_error a i = Some x -> nth_error b j = Some y -> nth_error c k = Some z ->
  nth_error (product3 a b c) ((i * List.length b + j) * List.length c + k) = Some (x, y, z).
Proof.
  intros X Y Z. unfold product3.
  assert (J : j < List.length b) by (apply nth_error_Some; congruence).
  assert (K : k < List.length c) by (apply nth_error_Some; congruence).
  replace ((i * List.length b + j) * List.length c + k) with (i * (List.length b * List.length c) + (j * List.length c + k)) by lia.
  erewrite nth_flat_const; [|intros; apply length_flat_const; intros; apply map_length|exact X|nia].
  erewrite nth_flat_const; [|intros; apply map_length|exact Y|exact K].
  apply map_nth_error. exact Z.
Qed.

Lemma product2_in {A B} (a : list A) (b : list B) x y : In (x, y) (product2 a b) <-> In x a /\ In y b.
Proof.
  unfold product2. rewrite in_flat_map. setoid_rewrite in_map_iff. split.
  - intros (u & U & v & E & V). inversion E; subst. auto.
  - intros (X & Y). exists x. split; [exact X|]. exists y. auto.
Qed.

Lemma product3_in {A B C} (a : list A) (b : list B) (c : list C) x y z :
  In (x, y, z) (product3 a b c) <-> In x a /\ In y b /\ In z c.
Proof.
  unfold product3. rewrite in_flat_map. setoid_rewrite in_flat_map. setoid_rewrite in_map_iff. split.
  - intros (u & U & v & V & w & E & W). inversion E; subst. auto.
  - intros (X & Y & Z). exists x. split; [exact X|]. exists y. split; [exact Y|]. exists z. auto.
Qed.

Lemma nodup_map_inj {A B} (f : A -> B) l : NoDup l -> (forall x y, In x l -> In y l -> f x = f y -> x = y) -> NoDup (map f l).
Proof.
  induction 1 as [|x l NI ND IH]; intros I; cbn; constructor.
  - rewrite in_map_iff. intros (y & E & Y). apply NI. rewrite <- (I y x); cbn; auto.
  - apply IH. intros u v U V. apply I; cbn; auto.
Qed.

Lemma nodup_flat {A B} (f : A -> list B) l : NoDup l -> (forall x, In x l -> NoDup (f x)) ->
  (forall x y z, In x l -> In y l -> In z (f x) -> In z (f y) -> x = y) -> NoDup (flat_map f l).
Proof.
  induction 1 as [|x l NI ND IH]; intros F D; cbn; [constructor|]. apply NoDup_app_iff. split; [apply F; cbn; auto|]. split.
  - apply IH; [intros; apply F; cbn; auto|]. intros u v w U V. apply D; cbn; auto.
  - intros z Z I. apply in_flat_map in I. destruct I as (y & Y & I). apply NI. rewrite (D x y z); cbn; auto.
Qed.

Lemma product2_nodup {A B} (a : list A) (b : list B) : NoDup a -> NoDup b -> NoDup (product2 a b).
Proof.
  intros NA NB. apply nodup_flat; auto.
  - intros x _. apply nodup_map_inj; auto. congruence.
  - intros x y z _ _ X Y. apply in_map_iff in X as (? & <- & _). apply in_map_iff in Y as (? & E & _). congruence.
Qed.

Lemma product3_nodup {A B C} (a : list A) (b : list B) (c : list C) : NoDup a -> NoDup b -> NoDup c -> NoDup (product3 a b c).
Proof.
  intros NA NB NC. apply nodup_flat; auto.
  - intros x _. apply nodup_flat; auto.
    + intros y _. apply nodup_map_inj; auto. congruence.
    + intros u v z _ _ X Y. apply in_map_iff in X as (? & <- & _). apply in_map_iff in Y as (? & E & _). congruence.
  - intros x y z _ _ X Y. apply in_flat_map in X as (? & _ & X). apply in_flat_map in Y as (? & _ & Y).
    apply in_map_iff in X as (? & <- & _). apply in_map_iff in Y as (? & E & _). congruence.
Qed.

(** ** vials *)

Definition combo (v : full_vial) := (fv_data v, fv_params v, fv_pre v).

Lemma combine_nth {A} (l : list A) s i x : nth_error l i = Some x -> nth_error (combine (seq s (List.length l)) l) i = Some (s + i, x).
Proof.
  revert s i. induction l as [|y l IH]; intros s [|i] H; cbn in *; try discriminate.
  - injection H as ->. f_equal. f_equal. lia.
  - rewrite (IH (S s) i H). f_equal. f_equal. lia.
Qed.

Lemma combine_snd {A} (l : list A) s : map snd (combine (seq s (List.length l)) l) = l.
Proof. revert s. induction l; intros s; cbn; [reflexivity|]. f_equal. apply IHl. Qed.
Lemma combine_fst {A} (l : list A) s : map fst (combine (seq s (List.length l)) l) = seq s (List.length l).
Proof. revert s. induction l; intros s; cbn; [reflexivity|]. f_equal. apply IHl. Qed.

Lemma vials_nth uuid data params pre i j k d m p :
  nth_error data i = Some d -> nth_error params j = Some m -> nth_error pre k = Some p ->
  let x := (i * List.length params + j) * List.length pre + k in
  nth_error (product_of_vials uuid data params pre) x = Some (mkFullVial (uuid x) d m p).
Proof.
  intros I J K x. unfold product_of_vials.
  pose proof (product3_nth data params pre i j k d m p I J K) as E. fold x in E.
  apply (combine_nth _ 0) in E. cbn [Nat.add] in E.
  erewrite map_nth_error by exact E. reflexivity.
Qed.

Lemma vials_length uuid data params pre :
  List.length (product_of_vials uuid data params pre) = List.length data * (List.length params * List.length pre).
Proof. unfold product_of_vials. rewrite map_length, combine_length, seq_length, Nat.min_id. apply product3_length. Qed.

Lemma vials_combo uuid data params pre : map combo (product_of_vials uuid data params pre) = product3 data params pre.
Proof.
  unfold product_of_vials. rewrite map_map. rewrite <- (combine_snd (product3 data params pre) 0) at 3.
  apply map_ext. intros (i & ((d & m) & p)). reflexivity.
Qed.

Lemma vials_uuid uuid data params pre :
  map fv_uuid (product_of_vials uuid data params pre) = map uuid (seq 0 (List.length (product3 data params pre))).
Proof.
  unfold product_of_vials. set (l := product3 data params pre). rewrite map_map.
  transitivity (map uuid (map fst (combine (seq 0 (List.length l)) l))); [|f_equal; apply combine_fst]. rewrite map_map.
  apply map_ext. intros (i & ((d & m) & p)). reflexivity.
Qed.

Lemma vials_in uuid data params pre v : In v (product_of_vials uuid data params pre) ->
  In (fv_data v) data /\ In (fv_params v) params /\ In (fv_pre v) pre.
Proof. intros H. apply (in_map combo) in H. rewrite vials_combo in H. apply product3_in in H. exact H. Qed.

Lemma vials_uuid_nodup uuid data params pre : (forall i j, uuid i = uuid j -> i = j) -> NoDup (map fv_uuid (product_of_vials uuid data params pre)).
Proof. intros I. rewrite vials_uuid. apply nodup_map_inj; [apply seq_NoDup|]. auto. Qed.

Lemma vials_nodup uuid data params pre : NoDup data -> NoDup params -> NoDup pre -> NoDup (map combo (product_of_vials uuid data params pre)).
Proof. intros. rewrite vials_combo. apply product3_nodup; auto. Qed.

(** ** data *)

Lemma tsp_in F al kl gl nl cl x : In x (product_of_tspwplib_data_config F al kl gl nl cl) <->
  exists a k g n c, In a al /\ In k kl /\ In g gl /\ In n nl /\ In c cl /\
    x = mkData Tspwplib c n (op_quota F g n a) (op_root F g n) (Some a) (Some g) (or_none k) (Some 0%Z).
Proof.
  unfold product_of_tspwplib_data_config. rewrite in_map_iff. split.
  - intros (((a & k) & ((g & n) & c)) & <- & H). apply product3_in in H as (A & K & H). apply product3_in in H as (G & N & C).
    exists a, k, g, n, c. auto 10.
  - intros (a & k & g & n & c & A & K & G & N & C & ->). exists (a, k, (g, n, c)). split; [reflexivity|].
    apply product3_in. split; [exact A|]. split; [exact K|]. apply product3_in. auto.
Qed.

Lemma tsp_nth F al kl gl nl cl i1 i2 i3 i4 i5 a k g n c :
  nth_error al i1 = Some a -> nth_error kl i2 = Some k -> nth_error gl i3 = Some g -> nth_error nl i4 = Some n -> nth_error cl i5 = Some c ->
  nth_error (product_of_tspwplib_data_config F al kl gl nl cl)
    ((((i1 * List.length kl + i2) * List.length gl + i3) * List.length nl + i4) * List.length cl + i5)
  = Some (mkData Tspwplib c n (op_quota F g n a) (op_root F g n) (Some a) (Some g) (or_none k) (Some 0%Z)).
Proof.
  intros H1 H2 H3 H4 H5. unfold product_of_tspwplib_data_config.
  pose proof (product3_nth gl nl cl _ _ _ _ _ _ H3 H4 H5) as E. apply (product3_nth al kl _ _ _ _ _ _ _ H1 H2) in E.
  rewrite product3_length in E.
  replace ((((i1 * List.length kl + i2) * List.length gl + i3) * List.length nl + i4) * List.length cl + i5) with
    ((i1 * List.length kl + i2) * (List.length gl * (List.length nl * List.length cl)) + ((i3 * List.length nl + i4) * List.length cl + i5)) by nia.
  erewrite map_nth_error by exact E. reflexivity.
Qed.

Lemma tsp_length F al kl gl nl cl : List.length (product_of_tspwplib_data_config F al kl gl nl cl) =
  List.length al * List.length kl * List.length gl * List.length nl * List.length cl.
Proof. unfold product_of_tspwplib_data_config. rewrite map_length, !product3_length. nia. Qed.

Lemma tsp_nodup F al kl gl nl cl : NoDup al -> NoDup kl -> NoDup gl -> NoDup nl -> NoDup cl ->
  (In None kl -> ~ In (Some 0%Z) kl) -> NoDup (product_of_tspwplib_data_config F al kl gl nl cl).
Proof.
  intros NA NK NG NN NC Z. apply nodup_map_inj; [repeat apply product3_nodup; auto|].
  intros ((a & k) & ((g & n) & c)) ((a' & k') & ((g' & n') & c')) H H' E.
  apply product3_in in H as (_ & K & _). apply product3_in in H' as (_ & K' & _).
  inversion E as [[E1 E2 E3 E4 E5 E6 E7]]. subst. assert (k = k') as ->; [|reflexivity].
  unfold or_none in E7. destruct k as [z|], k' as [z'|]; auto.
  - destruct (Z.eqb_spec z 0), (Z.eqb_spec z' 0); subst; try discriminate; auto. 
  - destruct (Z.eqb_spec z 0); subst; try discriminate. destruct (Z K' K).
  - destruct (Z.eqb_spec z' 0); subst; try discriminate. destruct (Z K K').
Qed.

Lemma tsp_files F al kl gl nl cl : Forall (fun x => dc_dataset x = Tspwplib /\ data_from_files F x) (product_of_tspwplib_data_config F al kl gl nl cl).
Proof.
  apply Forall_forall. intros x H. apply tsp_in in H as (a & k & g & n & c & _ & _ & _ & _ & _ & ->).
  split; [reflexivity|]. exists a, g. auto.
Qed.

Lemma laq_files F ql nl : Forall (fun x => dc_dataset x = Londonaq /\ data_from_files F x) (product_of_londonaq_data_config F ql nl).
Proof.
  apply Forall_forall. intros x H. apply in_map_iff in H as ((q & n) & <- & _). split; [reflexivity|].
  unfold data_from_files. cbn. repeat (split; [reflexivity|]). discriminate.
Qed.

Lemma laq_alpha_files F al nl : Forall (fun x => dc_dataset x = Londonaq /\ data_from_files F x) (product_of_londonaq_data_config_from_alpha F al nl).
Proof.
  apply Forall_forall. intros x H. apply in_map_iff in H as ((q & n) & <- & _). split; [reflexivity|].
  unfold data_from_files. cbn. repeat (split; [reflexivity|]). congruence.
Qed.

Lemma laq_nodup F ql nl : NoDup ql -> NoDup nl -> NoDup (product_of_londonaq_data_config F ql nl).
Proof. intros NQ NN. apply nodup_map_inj; [apply product2_nodup; auto|]. intros (q & n) (q' & n') _ _ E. inversion E. reflexivity. Qed.

Lemma laq_alpha_nodup F al nl : NoDup al -> NoDup nl -> NoDup (product_of_londonaq_data_config_from_alpha F al nl).
Proof. intros NQ NN. apply nodup_map_inj; [apply product2_nodup; auto|]. intros (q & n) (q' & n') _ _ E. inversion E. reflexivity. Qed.

Lemma laq_length F ql nl : List.length (product_of_londonaq_data_config F ql nl) = List.length ql * List.length nl.
Proof. unfold product_of_londonaq_data_config. rewrite map_length. apply product2_length. Qed.
Lemma laq_alpha_length F ql nl : List.length (product_of_londonaq_data_config_from_alpha F ql nl) = List.length ql * List.length nl.
Proof. unfold product_of_londonaq_data_config_from_alpha. rewrite map_length. apply product2_length. Qed.

(** ** parameters *)

Ltac small := unfold fits_int, int_min, int_max, relpscost, strong_at_tree_top, default_branching, strong_max_depth, max_tailing_off in *; lia.
Ltac run_one := constructor; cbn;
  [ reflexivity
  | first [ right; split; [reflexivity|split; [reflexivity|unfold implemented; cbn; tauto]]
          | left; split; [reflexivity|split; [reflexivity|split; [reflexivity|split;
              [unfold options_given; cbn; repeat (split; [eexists; split; [reflexivity|small]|]); split; discriminate
              |intros h E; inversion E; unfold implemented; cbn; tauto]]]] ]
  | intros z E; inversion E; small
  | intros z E; inversion E; split; small ].

Lemma params_run al c dl st tl : Forall (fun a => a = SolvePctsp \/ implemented a) al -> fits_int dl -> fits_int st -> (st < int_max)%Z ->
  Forall runnable (product_of_model_params al c dl st tl).
Proof.
  intros H DL S1 S2. apply Forall_forall. intros x X. apply in_map_iff in X as (a & <- & A).
  rewrite Forall_forall in H. destruct (H a A) as [-> | I]; [run_one|].
  destruct I as [<-|[<-|[<-|[<-|[<-|[]]]]]]; constructor; cbn; try reflexivity;
    try (right; split; [reflexivity|split; [reflexivity|unfold implemented; cbn; tauto]]);
    intros z E; inversion E; subst; auto.
Qed.

Lemma heuristic_params_run : Forall runnable all_heuristic_params.
Proof. repeat (constructor; [run_one|]). constructor. Qed.
Lemma tailing_params_run : Forall runnable tailing_off_params.
Proof. repeat (constructor; [run_one|]). constructor. Qed.
Lemma cc_params_run : Forall runnable cc_params.
Proof. repeat (constructor; [run_one|]). constructor. Qed.
Lemma baseline_params_run : Forall runnable baseline_params.
Proof. repeat (constructor; [run_one|]). constructor. Qed.

(** ** experiments *)

Ltac nodup := repeat (constructor; [cbn; intros X; repeat (destruct X as [X|X]; [discriminate X|]); exact X|]); constructor.

Lemma experiment_parts F uuid d e : offered d e -> exists data params,
  experiment_vials F uuid d e = Ok (product_of_vials uuid data params experiment_preprocessing) /\
  Forall (fun x => dc_dataset x = d /\ data_from_files F x) data /\ NoDup params /\
  (NoDup (all_generations F) -> NoDup data) /\ (e <> DisjointToursVsHeuristics -> Forall runnable params) /\
  List.length data * List.length params = vial_count d e (List.length (all_generations F)).
Proof.
  assert (PR : forall tl, Forall runnable (product_of_model_params [BfsExtensionCollapse; SuurballesHeuristic; SolvePctsp] false 2 1 tl)).
  { intros tl. apply params_run; try small. repeat constructor; cbn; tauto. }
  intros O. destruct d, e; cbn in O; try (exfalso; repeat (destruct O as [O|O]; [discriminate O|]); exact O); clear O;
    eexists; eexists; (split; [reflexivity|]);
    (split; [first [apply tsp_files|apply laq_files|apply laq_alpha_files]|]);
    (split; [solve [nodup]|]);
    (split; [intros NG; first [apply tsp_nodup; [solve [nodup]|solve [nodup]|first [exact NG|solve [nodup]]|solve [nodup]|solve [nodup]|intros X Y; cbn in Y; intuition discriminate]
                              |apply laq_nodup; solve [nodup]|apply laq_alpha_nodup; solve [nodup]]|]);
    (split; [first [intros X; exfalso; apply X; reflexivity
                   |intros _; first [apply heuristic_params_run|apply tailing_params_run|apply cc_params_run|apply baseline_params_run|apply PR]]|]);
    try unfold shared_data; first [rewrite tsp_length|rewrite laq_length|rewrite laq_alpha_length]; try reflexivity;
    cbn [List.length vial_count map product2 flat_map app tailing_off_params cc_params baseline_params all_heuristic_params tsplib_alpha_list tsplib_kappa_list tsplib_graph_name_list tsplib_cost_functions]; lia.
Qed.

Lemma not_offered F uuid d e : ~ offered d e -> experiment_vials F uuid d e = Throw ValueErrorPy.
Proof. intros H. destruct d, e; try reflexivity; exfalso; apply H; cbn; tauto. Qed.
