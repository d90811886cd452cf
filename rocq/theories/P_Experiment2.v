(** * P_Experiment2: the graph that is loaded, for Properties_Experiment *)
From Coq Require Import String Lia.
From Verif Require Import Base M_Python M_PyWrap M_RunAlg M_Compare M_Load Spec_Python Spec_Dataset Spec_Load P_Base P_Load P_Load2 P_Load3.
Open Scope nat_scope.

(** ** Loading *)

Lemma loaded_ok F R n pr d W pr' : good_files F -> keeps_attributes F -> all_scored F -> load_vial F R n pr d = Ok (W, pr') ->
  dc_kappa d = None \/ dc_kappa d = Some 0%Z -> ~ In (dc_cost_function d) ["UNIFORM_RANDOM"; "MST"; "SEMI_MST"]%string ->
  undirected (pg_adj W) /\ attributes_given (pg_adj W) (pg_cost W) (pg_prize W) /\
  forall u v, adj (pg_adj W) u v -> pg_cost W u v = pg_cost W v u.
Proof.
  intros GF KA AS E K CF. destruct (load_described _ _ _ _ _ _ _ GF E) as (_ & G0 & G1 & costs & IG & KP & NC & CO).
  assert (EG : G1 = G0) by (destruct K as [K|K]; rewrite K in KP; [exact KP|apply KP; reflexivity]). subst G1.
  assert (EC : costs = None).
  { destruct NC as [(H & _)|[(H & _)|[(H & _)|(_ & H)]]]; [exfalso; apply CF; rewrite H; cbn; auto..|exact H]. }
  subst costs. subst W.
  assert (X : exists g prize, weighted g /\ drawn g prize G0).
  { destruct GF as (G1 & G2 & _). unfold instance_graph in IG. destruct (dc_dataset d).
    - destruct IG as (g & ds & Eg & D). exists g, (ag_demand g). split; [exact (proj1 (G1 _ _ _ Eg))|exact D].
    - destruct IG as (g & ds & sc & Eg & D). exists g, (scored sc). split; [exact (proj1 (G2 _ _ _ _ _ Eg))|exact D]. }
  destruct X as (g & prize & (UG & SW & _) & (EA & DC & _)). rewrite EA. split; [exact UG|]. split.
  - rewrite <- EA. exact (attributes_ok _ _ _ _ _ _ _ GF KA AS E).
  - intros u v A. rewrite (DC u v A). rewrite (DC v u) by (apply UG, A). apply SW.
Qed.
