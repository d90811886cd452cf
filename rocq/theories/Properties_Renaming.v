(** * Properties_Renaming: C17, C52 *)
From Verif Require Import Base Graph Spec Spec_Gain Spec_Rename M_Float M_Walk M_Graph M_Dijkstra M_Extension M_Collapse
  M_Gain M_Renaming.
From Verif Require Import P_Base P_Check P_Dijkstra P_Renaming P_Bindings.
Open Scope nat_scope.

(** ** C17 *)
(** The lookup of a fresh [renameEdges] numbers the end points 0, 1, ... in the order of first
    appearance, the two directions are inverse to each other and undefined elsewhere, and the
    new edge list is the old one under this numbering. *)
Theorem C17_rename_edges_bijection : forall es, exists bm new_es labels,
  rename_edges [] es = (bm, new_es) /\ first_appearance (ends es) labels /\
  (forall n o, get_old_vertex bm n = Ok o <-> nth_error labels n = Some o) /\
  (forall n o, get_new_vertex bm o = Ok n <-> nth_error labels n = Some o) /\
  (forall n, length labels <= n -> get_old_vertex bm n = UB IterPastEnd) /\
  (forall o, ~ In o (ends es) -> get_new_vertex bm o = UB IterPastEnd) /\
  renamed labels (ends new_es) (ends es) /\ length new_es = length es /\
  get_old_edges bm new_es = Ok es /\ get_new_edges bm es = Ok new_es.
Proof. exact rename_edges_spec. Qed.
Print Assumptions C17_rename_edges_bijection.

Theorem C17_rename_vertices_bijection : forall vs, exists labels,
  let bm := rename_vertices [] vs in
  first_appearance vs labels /\
  (forall n o, get_old_vertex bm n = Ok o <-> nth_error labels n = Some o) /\
  (forall n o, get_new_vertex bm o = Ok n <-> nth_error labels n = Some o).
Proof. exact rename_vertices_spec. Qed.
Print Assumptions C17_rename_vertices_bijection.

(** Vertex lists there and back. *)
Theorem C17_round_trip : forall es bm new_es, rename_edges [] es = (bm, new_es) ->
  (forall vs, Forall (fun v => In v (ends es)) vs ->
     exists ns, get_new_vertices bm vs = Ok ns /\ get_old_vertices bm ns = Ok vs) /\
  (forall ns vs, get_old_vertices bm ns = Ok vs -> get_new_vertices bm vs = Ok ns).
Proof. exact round_trip. Qed.
Print Assumptions C17_round_trip.

Definition ren_es : list (nat * nat) := [(7,3);(3,9);(9,7);(9,4);(4,7);(9,2);(2,7)].

Example C17_case : rename_edges [] ren_es =
    ([(0,7);(1,3);(2,9);(3,4);(4,2)], [(0,1);(1,2);(2,0);(2,3);(3,0);(2,4);(4,0)]) /\
  get_old_edges [(0,7);(1,3);(2,9);(3,4);(4,2)] [(0,1);(1,2);(2,0);(2,3);(3,0);(2,4);(4,0)] = Ok ren_es /\
  get_new_vertices [(0,7);(1,3);(2,9);(3,4);(4,2)] [4;3;9] = Ok [3;1;2].
Proof. vm_compute. auto. Qed.

(** The counter starts at 0 even if the lookup is not empty: the first new vertex collides, is
    not inserted, and is renamed to a number that belongs to another vertex. *)
Theorem C17_reused_lookup_refuted : exists bm es bm' new_es,
  rename_edges [] [(5,6)] = (bm, [(0,1)]) /\ rename_edges bm es = (bm', new_es) /\
  get_old_edges bm' new_es <> Ok es /\ exists v, In v (ends es) /\ get_new_vertex bm' v = UB IterPastEnd.
Proof.
  exists [(0,5);(1,6)], [(8,5)], [(0,5);(1,6)], [(0,0)].
  split; [vm_compute; reflexivity|]. split; [vm_compute; reflexivity|].
  split; [vm_compute; discriminate|]. exists 8. split; [simpl; auto|vm_compute; reflexivity].
Qed.
Print Assumptions C17_reused_lookup_refuted.

(** ** C52: the bindings, in terms of the graph and the labels of the caller *)
(** [filled maps]: entries about the edges and vertices of the call land where they belong. *)
Theorem C52_maps_filled : forall G cd pd c p n, call_with G cd pd c p n ->
  exists bm g q labels, rename_graph (ge G) = (bm, g) /\ fill_maps bm g cd pd = Ok (c, q) /\
    first_appearance (ends (ge G)) labels /\ gn g = n /\
    renamed labels (ends (ge g)) (ends (ge G)) /\
    (forall a u, nth_error labels a = Some u -> nth_error q a = nth_error p u).
Proof. exact maps_filled. Qed.
Print Assumptions C52_maps_filled.

Theorem C52_collapse : forall G cd pd c p n C P, call_with G cd pd c p n ->
  costs_within G c 0 C -> prizes_within G p 0 P -> (0 <= C)%Z -> (0 <= P)%Z ->
  (2 * (Z.of_nat (S n) * C) <= int_max)%Z -> (3 * (Z.of_nat (S n) * P) <= int_max)%Z ->
  forall tb, good_pick tb -> forall root t s m quota shortest,
  closed_tour G s m t -> m <= 2 -> In root t ->
  exists t' z z', collapse_bind tb (ge G) t cd pd quota root shortest = Ok t' /\
    closed_tour G root m t' /\
    walk_cost G c t z /\ walk_cost G c t' z' /\ (z' <= z)%Z /\
    (forall pz, tour_prize p t pz -> (quota <= pz)%Z ->
        exists pz', tour_prize p t' pz' /\ (quota <= pz')%Z) /\
    (forall pz, tour_prize p t pz -> (pz < quota)%Z -> same_cycle t t') /\
    (forall i w x ext zw ze, i < length t -> quota_path p quota t i w x -> In root w ->
        vertex_collapse G p quota w ext -> walk_cost G c w zw -> walk_cost G c ext ze ->
        (z' <= zw + ze)%Z).
Proof. exact collapse_bind_ok. Qed.
Print Assumptions C52_collapse.

Theorem C52_path_extension : forall G cd pd c p n C P, call_with G cd pd c p n ->
  (Z.of_nat n <= int_max)%Z -> costs_within G c (- C) C -> prizes_within G p 0 P -> (0 <= C)%Z -> (0 <= P)%Z ->
  (2 * (Z.of_nat (S n) * C) <= int_max)%Z -> (2 * (Z.of_nat (S n) * P) <= int_max)%Z ->
  forall root step depth t, closed_tour G root 1 t ->
  (int_min <= step <= int_max)%Z -> step <> 0%Z ->
  exists t', path_extension_bind (ge G) t cd pd root step depth = Ok t' /\
    (t' = t \/
     closed_tour G root 2 t' /\
     forall z, tour_prize p t z -> exists z', tour_prize p t' z' /\ (z < z')%Z).
Proof. exact path_extension_bind_ok. Qed.
Print Assumptions C52_path_extension.

Theorem C52_path_extension_until : forall G cd pd c p n C P, call_with G cd pd c p n ->
  (Z.of_nat n <= int_max)%Z -> costs_within G c (- C) C -> prizes_within G p 0 P -> (0 <= C)%Z -> (0 <= P)%Z ->
  (2 * (Z.of_nat (S n) * C) <= int_max)%Z -> (2 * (Z.of_nat (S n) * P) <= int_max)%Z ->
  forall root quota step depth t, closed_tour G root 1 t ->
  (int_min <= step <= int_max)%Z -> step <> 0%Z ->
  exists t', path_extension_until_bind (ge G) t cd pd root quota step depth = Ok t' /\
    (t' = t \/
     closed_tour G root 2 t' /\
     forall z, tour_prize p t z -> exists z', tour_prize p t' z' /\ (z < z')%Z) /\
    (forall z, tour_prize p t z -> (quota <= z)%Z -> t' = t).
Proof. exact until_bind_ok. Qed.
Print Assumptions C52_path_extension_until.

Theorem C52_path_extension_collapse : forall G cd pd c p n C P, call_with G cd pd c p n ->
  costs_within G c 0 C -> prizes_within G p 0 P -> (0 <= C)%Z -> (0 <= P)%Z ->
  (2 * (Z.of_nat (S n) * C) <= int_max)%Z -> (3 * (Z.of_nat (S n) * P) <= int_max)%Z ->
  forall tb, good_pick tb -> (Z.of_nat n <= int_max)%Z ->
  forall root m quota depth shortest step_size t,
  1 <= m <= 2 -> (step_size < int_max)%Z -> closed_tour G root m t ->
  exists t', path_extension_collapse_bind tb (ge G) t cd pd root quota shortest depth step_size = Ok t' /\
    (t' = [] \/ closed_tour G root m t' /\ exists z, tour_prize p t' z /\ (quota <= z)%Z) /\
    (forall z, tour_prize p t z -> (quota <= z)%Z -> exists x y,
       t' <> [] /\ walk_cost G c t x /\ walk_cost G c t' y /\ (y <= x)%Z).
Proof. exact combined_bind_ok. Qed.
Print Assumptions C52_path_extension_collapse.

Theorem C52_unitary_gain : forall G cd pd c p n C P, call_with G cd pd c p n ->
  costs_within G c (- C) C -> prizes_within G p 0 P -> (0 <= P)%Z -> (3 * C <= int_max)%Z ->
  forall root t z, closed_tour G root 1 t -> tour_prize p t z ->
  exists t' z', extension_unitary_gain_bind (ge G) t cd pd = Ok t' /\
    closed_tour G root 1 t' /\ (t' = t \/ closed_tour G root 2 t') /\ subseq t t' /\ length t' <= S n /\
    tour_prize p t' z' /\ (z + (Z.of_nat (length t') - Z.of_nat (length t)) <= z')%Z.
Proof. exact gain_bind_ok. Qed.
Print Assumptions C52_unitary_gain.

Theorem C52_extension_until : forall G cd pd c p n C P, call_with G cd pd c p n ->
  costs_within G c (- C) C -> prizes_within G p (- P) P ->
  (3 * C <= int_max)%Z -> (0 <= P)%Z -> (Z.of_nat (S n) * P <= int_max)%Z ->
  forall root t quota, closed_tour G root 1 t ->
  exists t', extension_until_bind (ge G) t cd pd quota = Ok t' /\
    ((exists z, tour_prize p t' z /\ (quota <= z)%Z) \/
     (forall v i x, gain_at G c p t' v i x -> f_lt f_zero x = false)) /\
    closed_tour G root 1 t' /\ (t' = t \/ closed_tour G root 2 t') /\ subseq t t' /\ length t' <= S n.
Proof. exact extension_bind_ok. Qed.
Print Assumptions C52_extension_until.

(** The caller's graph of [C52_case]: labels 7, 3, 9, 4, 2 only. *)
Definition ren_G : graph := mkGraph 10 ren_es.
Definition ren_cd : list ((nat * nat) * Z) := 
  [((2,7),2%Z);((2,9),1%Z);((3,7),1%Z);((3,9),2%Z);((4,7),1%Z);((4,9),1%Z);((9,7),1%Z)].
Definition ren_c : list Z := [1;2;1;1;1;1;2]%Z.
Definition ren_pd : list (nat * Z) := [(2,1%Z);(4,6%Z);(7,1%Z);(9,2%Z)].
Definition ren_p : list Z := [0;0;1;0;6;0;0;1;0;2]%Z.

(** Checking that the dictionaries give these costs and prizes. *)
Lemma ren_call : call_with ren_G ren_cd ren_pd ren_c ren_p 5.
Proof.
  split; [check|]. split; [|split].
  - split; [reflexivity|]. split.
    + intros u v x H.
      repeat (destruct H as [H|H]; [inversion H; subst; eexists; split; [apply edge_Some; vm_compute; reflexivity|reflexivity]|]).
      destruct H.
    + intros e He Hno. exfalso.
      assert (Hs : forall u v x, In ((u, v), x) ren_cd -> edge ren_G u v = Ok (Some e) -> False).
      { intros u v x Hi E. apply (Hno u v x Hi). now apply edge_Some. }
      do 7 (destruct e as [|e];
        [first [ (apply (Hs 2 7 2%Z); [simpl; tauto|vm_compute; reflexivity]) | (apply (Hs 2 9 1%Z); [simpl; tauto|vm_compute; reflexivity]) | (apply (Hs 3 7 1%Z); [simpl; tauto|vm_compute; reflexivity]) | (apply (Hs 3 9 2%Z); [simpl; tauto|vm_compute; reflexivity])
               | (apply (Hs 4 7 1%Z); [simpl; tauto|vm_compute; reflexivity]) | (apply (Hs 4 9 1%Z); [simpl; tauto|vm_compute; reflexivity]) | (apply (Hs 9 7 1%Z); [simpl; tauto|vm_compute; reflexivity])] |]). cbn in He. lia.
  - split; [reflexivity|]. split.
    + intros v x H. repeat (destruct H as [H|H]; [inversion H; subst; split; [simpl; tauto|reflexivity]|]). destruct H.
    + intros v Hv Hno. cbn in Hv.
      repeat (destruct Hv as [<-|Hv]; [first [reflexivity | exfalso; eapply Hno; simpl; tauto]|]). destruct Hv.
  - exists [7;3;9;4;2]. split; [repeat constructor; simpl; lia|]. split; [|reflexivity].
    intros v. simpl. tauto.
Qed.

Example C52_case : call_with ren_G ren_cd ren_pd ren_c ren_p 5 /\
  costs_within ren_G ren_c 0 2 /\ prizes_within ren_G ren_p 0 6 /\
  closed_tour ren_G 7 2 [7;3;9;7] /\ closed_tour ren_G 9 2 [9;2;7;3;9] /\
  extension_until_bind (ge ren_G) [7;3;9;7] ren_cd ren_pd 9 = Ok [7;3;9;4;7] /\
  closed_tour ren_G 7 2 [7;3;9;4;7] /\ tour_prize ren_p [7;3;9;4;7] 9 /\
  extension_unitary_gain_bind (ge ren_G) [7;3;9;7] ren_cd ren_pd = Ok [7;3;9;4;7] /\
  path_extension_bind (ge ren_G) [7;3;9;7] ren_cd ren_pd 7 1 2 = Ok [7;3;9;4;7] /\
  path_extension_until_bind (ge ren_G) [7;3;9;7] ren_cd ren_pd 7 9 1 2 = Ok [7;3;9;4;7] /\
  collapse_bind pick_first (ge ren_G) [9;2;7;3;9] ren_cd ren_pd 3 7 true = Ok [7;3;9;7] /\
  walk_cost ren_G ren_c [9;2;7;3;9] 6 /\ walk_cost ren_G ren_c [7;3;9;7] 4 /\
  path_extension_collapse_bind pick_first (ge ren_G) [7;3;9;2;7] ren_cd ren_pd 7 3 true 2 1 = Ok [7;3;9;7].
Proof. split; [exact ren_call|]. check. Qed.

(** A vertex that is on no edge of the call: undefined behaviour of the lookup. *)
Theorem C52_unknown_vertex_refuted : exists G cd pd c p t x,
  call_with G cd pd c p 5 /\ closed_tour G 7 2 t /\ x < gn G /\
  collapse_bind pick_first (ge G) t cd pd 3 x true = UB IterPastEnd /\
  extension_until_bind (ge G) (t ++ [x]) cd pd 9 = UB IterPastEnd /\
  extension_until_bind (ge G) t cd (pd ++ [(x,1%Z)]) 9 = UB IterPastEnd.
Proof.
  exists ren_G, ren_cd, ren_pd, ren_c, ren_p, [7;3;9;7], 8. split; [exact ren_call|]. split; [check|].
  split; [check|]. vm_compute. auto.
Qed.
Print Assumptions C52_unknown_vertex_refuted.

(** A cost for a pair that is no edge. *)
Theorem C52_no_edge_refuted : exists G cd pd c p t x,
  call_with G cd pd c p 5 /\ closed_tour G 7 2 t /\ ~ is_edge G (fst x) (snd x) /\
  extension_until_bind (ge G) t (cd ++ [(x,1%Z)]) pd 9 = Throw EdgeNotFoundException.
Proof.
  exists ren_G, ren_cd, ren_pd, ren_c, ren_p, [7;3;9;7], (3,4). split; [exact ren_call|]. split; [check|].
  split; [|vm_compute; reflexivity]. apply edge_None. vm_compute. reflexivity.
Qed.
Print Assumptions C52_no_edge_refuted.
