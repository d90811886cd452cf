(** * P_Cover: the cycle cover handler *)
From Coq Require Import Permutation Sorting.Sorted.
From Verif Require Import Base Graph Spec Spec_Cycle M_Walk M_Graph M_Solution M_ILP M_Subtour M_CycleCover Spec_ILP.
From Verif Require Import P_Base P_Walk P_Cycle P_Extension P_ILP P_Model P_Lookup P_Cuts P_Component P_Separate.
Open Scope nat_scope.

Lemma root_component_ok g s root : graph_ok g -> (Z.of_nat (gn g) <= int_max)%Z -> root < gn g ->
  exists S, get_root_component g s root = Ok S /\ NoDup S /\ Forall (fun v => v < gn g) S /\
    In root S /\ forall b, In b S <-> connected (filter_positive g s) root b.
Proof.
  intros Hg Hmax Hr. unfold get_root_component.
  destruct (support_components_ok g s root Hg Hmax Hr) as (cvs & rid & E & Hrid & Hcv & _).
  rewrite E. cbn [bind]. destruct (vget_ok cvs rid Hrid) as (S & ES & HS). rewrite ES.
  destruct (Hcv rid S HS) as (H1 & H2 & H3 & H4). exists S. split; auto. split; auto. split; auto.
  assert (HrS : In root S) by now apply H3. split; auto.
Qed.

Lemma cover_violated_ok g p P quota root s : graph_ok g -> (Z.of_nat (gn g) <= int_max)%Z ->
  root < gn g -> prizes_within g p (- P) P -> (Z.of_nat (gn g) * P <= int_max)%Z ->
  exists S b z, get_root_component g s root = Ok S /\ prize_sum p S z /\
    NoDup S /\ Forall (fun v => v < gn g) S /\ In root S /\
    (forall v, In v S <-> connected (filter_positive g s) root v) /\
    is_prize_feasible p quota S = Ok b /\ (b = true <-> (quota <= z)%Z).
Proof.
  intros Hg Hmax Hr [Hpl Hpf] HP.
  destruct (root_component_ok g s root Hg Hmax Hr) as (S & ES & Hn & Hf & HrS & Hc).
  destruct (prize_feasible_ok p P quota S Hpf) as (b & z & Eb & Hz & Hb).
  { rewrite Hpl. exact Hf. }
  { pose proof (NoDup_length_le _ _ Hn Hf).
    assert (0 <= P)%Z.
    { destruct p as [|x p]; [cbn in Hpl; lia|]. apply Forall_cons_iff in Hpf as [? _]. lia. }
    nia. }
  exists S, b, z. auto 10.
Qed.

Lemma separate_cover_ok lib g p P quota root s st : graph_ok g -> all_loops g ->
  (Z.of_nat (gn g) <= int_max)%Z -> root < gn g -> prizes_within g p (- P) P ->
  (Z.of_nat (gn g) * P <= int_max)%Z ->
  exists st' S z, separate_cycle_cover lib g (var_map g) p quota root s st = Ok st' /\
    (forall v, In v S <-> connected (filter_positive g s) root v) /\ NoDup S /\ prize_sum p S z /\
    ((quota <= z)%Z -> st' = st) /\
    ((z < quota)%Z -> exists row, adds_row lib row st st' /\
       (Forall (fun x => 0 <= x)%Z p -> forall t s', tour_from g root t -> meets_quota p quota t ->
          incidence g t s' -> row_sat s' row) /\
       (no_parallel g -> binary g s ->
        (forall v l, v < gn g -> joins g l v v ->
          (2 * s_num s l = s_den s * Z.of_nat (length (enbrs g (sup g s) v)))%Z) ->
        (forall l, joins g l root root -> s_num s l = s_den s) -> ~ row_sat s row)).
Proof.
  intros Hg Hl Hmax Hr Hpw HP.
  destruct (cover_violated_ok g p P quota root s Hg Hmax Hr Hpw HP)
    as (S & b & z & ES & Hz & Hn & Hf & HrS & Hc & Eb & Hb).
  assert (HlS : forall v, In v S -> is_edge g v v).
  { intros v Hv. apply Hl. rewrite Forall_forall in Hf. auto. }
  unfold separate_cycle_cover. rewrite ES. cbn [bind]. rewrite Eb. cbn [bind]. destruct b.
  - exists st, S, z. split; auto. split; auto. split; auto. split; auto. split; auto.
    intros Hlt. assert (quota <= z)%Z by now apply Hb. lia.
  - assert (HSne : S <> []) by (intros ->; destruct HrS).
    destruct (cycle_cover_terms lib g S st Hf Hn HSne HlS) as (es & ls & st' & He & Hls & E & Ha).
    exists st', S, z. split; auto. split; auto. split; auto. split; auto. split.
    { intros Hle. apply Hb in Hle. discriminate. }
    intros Hlt. eexists. split; [exact Ha|]. split.
    + intros Hp0 t s' Ht Hq Hi. apply (cover_valid g S root es ls t s'); auto.
      apply (quota_outside g p quota S z root t); auto.
    + intros Hp Hbin Hdeg Hroot [_ Hrow]. cbn [l_rhs l_terms] in Hrow. specialize (Hrow (-1)%Z eq_refl).
      destruct (component_sums g Hg Hp Hl s Hbin root Hr Hdeg Hroot root S es) as [H1 H2]; auto.
      { apply (root_degree g Hl s Hbin root Hr Hdeg Hroot). }
      rewrite combine_app_eq in Hrow by (now rewrite repeat_length).
      rewrite lin_value_app, !lin_value_const, H1 in Hrow.
      rewrite (zsum_all _ (s_den s) ls) in Hrow.
      * rewrite <- (Forall2_length_eq _ _ _ Hls) in Hrow. destruct Hbin as [HD _]. nia.
      * intros e Hin. destruct (Forall2_In_r _ _ _ _ Hls Hin) as (v & Hv & [Hj _]). eauto.
Qed.

(** ** reading the degree and root rows *)
Lemma degree_rows_values g s ds : no_parallel g -> all_loops g -> binary g s ->
  degree_constraints g = Ok ds -> Forall (row_sat s) ds ->
  forall v l, v < gn g -> joins g l v v ->
    (2 * s_num s l = s_den s * Z.of_nat (length (enbrs g (sup g s) v)))%Z.
Proof.
  intros Hp Hl Hb E Hs.
  destruct (degree_constraints_ok g Hp Hl (mkSol 1%Z (fun _ => 0%Z))) as (ds' & E' & Hds).
  rewrite E in E'. inversion E'; subst ds'. exact (proj1 (degree_rows_sat g Hp s Hb ds Hds) Hs).
Qed.

Lemma root_row_value s l : row_sat s (root_constraint l) -> s_num s l = s_den s.
Proof.
  intros [H1 H2]. specialize (H1 1%Z eq_refl). specialize (H2 1%Z eq_refl).
  cbn [root_constraint l_terms lin_value] in *. lia.
Qed.

Lemma root_rows_value g s root rl : no_parallel g -> joins g rl root root ->
  row_sat s (root_constraint rl) -> forall l, joins g l root root -> s_num s l = s_den s.
Proof. intros Hp Hj H l Hl. rewrite (Hp l rl root root Hl Hj). now apply root_row_value. Qed.
