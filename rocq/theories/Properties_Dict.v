(** * Properties_Dict: C58 *)
From Verif Require Import Base Graph Spec Spec_Dict M_Walk M_Graph M_Solution M_ILP.
From Verif Require Import P_Base P_Dict.
Open Scope nat_scope.

(** ** C58 *)
Theorem C58_dictionary_model : forall g edges heur cost_dict prize_dict quota root,
  graph_of_edges edges g ->
  Forall (fun e => fst e < gn g) prize_dict ->
  Forall (fun e => is_edge g (fst (fst e)) (snd (fst e))) cost_dict ->
  Forall (fun e => is_edge g (fst e) (snd e)) heur ->
  exists hs c p, Forall2 (fun h e => step_edge g (fst h) (snd h) e) heur hs /\
    filled (fun k e => step_edge g (fst k) (snd k) e) cost_dict (length edges) c /\
    filled eq prize_dict (gn g) p /\
    model_pctsp_dict edges heur cost_dict prize_dict quota root = model_pctsp g hs c p quota root.
Proof. exact dict_model. Qed.
Print Assumptions C58_dictionary_model.

Theorem C58_unknown_edge : forall g edges heur cost_dict prize_dict quota root,
  graph_of_edges edges g ->
  Forall (fun e => fst e < gn g) prize_dict ->
  Forall (fun e => fst (fst e) < gn g) cost_dict ->
  Forall (fun e => fst e < gn g) heur ->
  (exists k z, In (k, z) cost_dict /\ ~ is_edge g (fst k) (snd k)) \/
  (exists h, In h heur /\ ~ is_edge g (fst h) (snd h)) ->
  model_pctsp_dict edges heur cost_dict prize_dict quota root = Throw EdgeNotFoundException.
Proof. exact dict_model_throws. Qed.
Print Assumptions C58_unknown_edge.

(** A triangle with a pendant vertex; one key is reversed, one edge and one vertex have no
    entry, and the edge 0-1 has an entry in each direction. *)
Definition dict_edges : list (nat * nat) := [(0,1);(1,2);(2,0);(2,3)].
Definition dict_costs : list ((nat * nat) * Z) :=
  [((0,1),5%Z);((0,2),7%Z);((1,0),6%Z);((2,3),1%Z)].
Definition dict_prizes : list (nat * Z) := [(0,0%Z);(1,4%Z);(3,2%Z)].
Example C58_case :
  graph_of_edges dict_edges (mkGraph 4 dict_edges) /\
  fill_costs (mkGraph 4 dict_edges) dict_costs = Ok [6;0;7;1]%Z /\
  fill_prizes (mkGraph 4 dict_edges) dict_prizes = Ok [0;4;0;2]%Z /\
  model_pctsp_dict dict_edges [(1,0);(2,1);(0,2)] dict_costs dict_prizes 3 0 =
  model_pctsp (mkGraph 4 dict_edges) [0;1;2] [6;0;7;1]%Z [0;4;0;2]%Z 3 0 /\
  model_pctsp_dict dict_edges [(1,3)] dict_costs dict_prizes 3 0 = Throw EdgeNotFoundException.
Proof.
  split; [split; [reflexivity|]|vm_compute; tauto].
  intros n. cbn [gn]. unfold dict_edges. split.
  - intros H. repeat constructor; cbn; lia.
  - intros H. repeat match goal with H : Forall _ (_ :: _) |- _ => apply Forall_cons_iff in H as [? H] end. cbn in *. lia.
Qed.
