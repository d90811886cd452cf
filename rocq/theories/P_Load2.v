(** * P_Load2: the graph of a vial, the rounds of a lab, and the statistics of a data set *)
From Coq Require Import String QArith.
From Verif Require Import Base M_Python M_PyWrap M_RunAlg M_Compare M_Dataset M_Lab M_Csv M_Summary M_Load Spec_Python Spec_Summary Spec_Load P_Base
  P_PyWrap P_Load.
Open Scope nat_scope.
Open Scope string_scope.

(** ** The graph of the instance *)

Lemma demands_drawn g pr : weighted g -> all_demands g -> exists G, with_prizes pr g = Ok G /\ drawn g (ag_demand g) G /\ undirected (pg_adj G).
Proof.
  intros W D. pose proof W as (U & _). destruct (rename_ok g W) as (w & c & E & C). unfold with_prizes. rewrite E. cbn [bind].
  set (g1 := mkAttr _ _ _ _ _). unfold rename_node_attributes.
  destruct (rename_nodes_ok (nx_nodes (ag_adj g1)) g1) as (d & p & R & A & _). { apply U. } { exact D. }
  rewrite R. eexists. split; [reflexivity|]. split; [|exact U]. split; [reflexivity|]. split; [exact C|]. exact A.
Qed.

Lemma no_demand_renamed g : (forall v, vertex (ag_adj g) v -> ag_demand g v = None) ->
  rename_node_attributes g = (g, match ag_adj g with [] => true | _ => false end).
Proof.
  intro D. unfold rename_node_attributes. destruct (ag_adj g) as [|(v, l) r] eqn:E; [reflexivity|].
  cbn. rewrite D; [reflexivity|]. left. reflexivity.
Qed.

Lemma scores_drawn g scores : weighted g -> no_demands g ->
  exists G g1, rename_edge_attributes g = Ok g1 /\ (ag_adj g1 = ag_adj g /\ ag_prize g1 = ag_prize g) /\ with_prizes (Some scores) g = Ok G /\ G = plain (set_prizes scores g1) /\
    drawn g (scored scores) G /\ undirected (pg_adj G).
Proof.
  intros W D. pose proof W as (U & _). destruct (rename_ok g W) as (w & c & E & C). unfold with_prizes. rewrite E. cbn [bind].
  set (g1 := mkAttr _ _ _ _ _). rewrite no_demand_renamed by (intros v V; apply D; exact V).
  exists (plain (set_prizes scores g1)), g1. split; [reflexivity|]. split; [split; reflexivity|]. split.
  { rewrite set_prizes_is. cbn [ag_adj g1]. destruct (ag_adj g) eqn:EA; [|reflexivity].
    rewrite prz_empty. reflexivity. }
  split; [reflexivity|]. rewrite set_prizes_is. split; [|exact U]. split; [reflexivity|]. split; [exact C|].
  intros v V. cbn. rewrite prz_ok by exact V. destruct (scored scores v); [reflexivity|]. apply D. exact V.
Qed.

(** ** Sparse graphs and costs *)

Lemma costs_of W n c G G' : undirected (pg_adj G) -> with_costs W n c G = Ok G' ->
  exists o, new_costs W n c G o /\ match o with Some cs => repriced cs G G' | None => G' = G end.
Proof.
  unfold with_costs, new_costs. intro U.
  destruct (String.eqb_spec c "UNIFORM_RANDOM") as [->|N1].
  { intro E. injection E as <-. eexists. split; [left; split; reflexivity|]. apply set_costs_ok, U. }
  destruct (String.eqb_spec c "MST") as [->|N2].
  { intro E. destruct (w_mst W G) as [cs|e|u|] eqn:EM; try discriminate. cbn [bind] in E. injection E as <-.
    exists (Some cs). split; [right; left; eauto|]. apply set_costs_ok, U. }
  destruct (String.eqb_spec c "SEMI_MST") as [->|N3].
  { intro E. destruct (w_semi_mst W G) as [cs|e|u|] eqn:EM; try discriminate. cbn [bind] in E. injection E as <-.
    exists (Some cs). split; [right; right; left; eauto|]. apply set_costs_ok, U. }
  intro E. injection E as <-. exists None. split; [|reflexivity]. right. right. right. split; [|reflexivity].
  cbn. intros [H|[H|[H|[]]]]; congruence.
Qed.

Lemma sparse_of W k G G1 : good_files W -> undirected (pg_adj G) ->
  match or_none k with Some k => w_sparsify W G (Some k) | None => Ok G end = Ok G1 ->
  undirected (pg_adj G1) /\
  match k with None => G1 = G | Some k => (k = 0%Z -> G1 = G) /\ (k <> 0%Z -> w_sparsify W G (Some k) = Ok G1) end.
Proof.
  intros (_ & _ & GS) U. destruct k as [k|]; cbn [or_none].
  - destruct (Z.eqb_spec k 0) as [->|N]; intro E.
    + injection E as <-. split; [exact U|]. split; [reflexivity|congruence].
    + split; [exact (GS _ _ _ U E)|]. split; [congruence|auto].
  - intro E. injection E as <-. auto.
Qed.

Theorem load_described W R n pr d G pr' : good_files W -> load_vial W R n pr d = Ok (G, pr') -> root_there R d /\ described W n d G.
Proof.
  intros GF. unfold load_vial. intro E. apply bind_ok in E as ((g & p1) & ER & E). apply bind_ok in E as (G0 & E0 & E).
  apply bind_ok in E as (G1 & E1 & E). apply bind_ok in E as (G2 & E2 & E). injection E as -> ->.
  assert (X : root_there R d /\ instance_graph W d G0 /\ undirected (pg_adj G0)).
  { unfold read_problem in ER. unfold root_there, instance_graph. destruct (dc_dataset d).
    - destruct (londonaq_root R) as [[|]|]; try discriminate. apply bind_ok in ER as ((h & ds) & EL & ER). injection ER as -> ->.
      destruct GF as (GL & _). destruct (GL _ _ _ EL) as (A & B). destruct (demands_drawn g pr' A B) as (G0' & F & D & U).
      rewrite F in E0. injection E0 as ->. split; [reflexivity|]. split; [exists g, ds; auto|exact U].
    - destruct (oplib_root R) as [[[|] [|]]|]; try discriminate. apply bind_ok in ER as (((h & ds) & sc) & EL & ER). injection ER as -> <-.
      destruct GF as (_ & GO & _). destruct (GO _ _ _ _ _ EL) as (A & B).
      destruct (scores_drawn g sc A B) as (G0' & g1 & _ & _ & F & _ & D & U).
      rewrite F in E0. injection E0 as ->. split; [reflexivity|]. split; [exists g, ds, sc; auto|exact U]. }
  destruct X as (RT & IG & U). split; [exact RT|].
  destruct (sparse_of W _ _ _ GF U E1) as (U1 & SP). destruct (costs_of W n _ _ _ U1 E2) as (o & NC & RP).
  exists G0, G1, o. auto.
Qed.

(** ** It does not depend on earlier vials *)

Lemma load_graph W R n pr d : good_files W -> graph_of (load_vial W R n pr d) = graph_of (load_vial W R n None d).
Proof.
  intros GF. unfold load_vial, read_problem. destruct (dc_dataset d); [|reflexivity].
  destruct (londonaq_root R) as [[|]|]; try reflexivity.
  destruct (w_londonaq W (dc_graph_name d)) as [(g, ds)|e|u|] eqn:EL; try reflexivity. cbn [bind].
  destruct GF as (GL & _). destruct (GL _ _ _ EL) as (A & B).
  assert (X : with_prizes pr g = with_prizes None g).
  { unfold with_prizes. destruct (rename_ok g A) as (w & c & E & _). rewrite E. cbn [bind]. unfold rename_node_attributes.
    set (g1 := mkAttr _ _ _ _ _). destruct (rename_nodes_ok (nx_nodes (ag_adj g1)) g1) as (d' & p & RN & _). { apply A. } { exact B. }
    rewrite RN. reflexivity. }
  rewrite X. destruct (with_prizes None g) as [G| | |]; try reflexivity. cbn [bind].
  destruct (match or_none (dc_kappa d) with Some k => _ | None => _ end) as [G1| | |]; try reflexivity. cbn [bind].
  destruct (with_costs W n (dc_cost_function d) G1); reflexivity.
Qed.

Lemma costs_round W n n' c G : c <> "UNIFORM_RANDOM" -> with_costs W n c G = with_costs W n' c G.
Proof. intro N. unfold with_costs. destruct (String.eqb_spec c "UNIFORM_RANDOM"); [contradiction|reflexivity]. Qed.

Lemma load_fair W R n n' pr pr' d d' : good_files W -> same_instance d d' -> dc_cost_function d <> "UNIFORM_RANDOM" ->
  graph_of (load_vial W R n pr d) = graph_of (load_vial W R n' pr' d').
Proof.
  intros GF (A & B & C & D & E) N. rewrite (load_graph W R n pr), (load_graph W R n' pr') by exact GF.
  unfold load_vial, read_problem. rewrite <- A, <- B, <- C, <- D, <- E.
  destruct (match dc_dataset d with Londonaq => _ | Tspwplib => _ end) as [(g, p)| | |]; try reflexivity. cbn [bind].
  destruct (with_prizes p g) as [G| | |]; try reflexivity. cbn [bind].
  destruct (match or_none (dc_kappa d) with Some k => _ | None => _ end) as [G1| | |]; try reflexivity. cbn [bind].
  rewrite (costs_round W n n' _ _ N). reflexivity.
Qed.

Lemma graph_of_ok m G : graph_of m = Ok G <-> exists p, m = Ok (G, p).
Proof.
  unfold graph_of. destruct m as [(G', p)| | |]; cbn.
  - split; [intro E; injection E as ->; eauto|intros (q & E); injection E as -> _; reflexivity].
  - split; [discriminate|intros (q & E); discriminate].
  - split; [discriminate|intros (q & E); discriminate].
  - split; [discriminate|intros (q & E); discriminate].
Qed.

Lemma graph_of_throw m e : graph_of m = Throw e <-> m = Throw e.
Proof. unfold graph_of. destruct m as [(G', p)| | |]; cbn; split; congruence. Qed.

(** It succeeds if all that is outside does. *)
Lemma load_succeeds W R n pr d : good_files W -> root_there R d ->
  match dc_dataset d with
  | Londonaq => exists x, w_londonaq W (dc_graph_name d) = Ok x
  | Tspwplib => exists x, w_oplib W (dc_generation d) (dc_graph_name d) = Ok x
  end ->
  (forall G k, dc_kappa d = Some k -> exists G', w_sparsify W G (Some k) = Ok G') ->
  (forall G, dc_cost_function d = "MST" -> exists c, w_mst W G = Ok c) ->
  (forall G, dc_cost_function d = "SEMI_MST" -> exists c, w_semi_mst W G = Ok c) ->
  exists G pr', load_vial W R n pr d = Ok (G, pr').
Proof.
  intros GF RT F S M SM.
  assert (X : exists g p G, read_problem W R pr d = Ok (g, p) /\ with_prizes p g = Ok G).
  { unfold read_problem. unfold root_there in RT. destruct GF as (GL & GO & _). destruct (dc_dataset d).
    - rewrite RT. destruct F as ((g & ds) & F). rewrite F. cbn [bind]. destruct (GL _ _ _ F) as (A & B).
      destruct (demands_drawn g pr A B) as (G & E & _). eauto.
    - rewrite RT. destruct F as (((g & ds) & sc) & F). rewrite F. cbn [bind]. destruct (GO _ _ _ _ _ F) as (A & B).
      destruct (scores_drawn g sc A B) as (G & g1 & _ & _ & E & _). eauto. }
  destruct X as (g & p & G & E1 & E2). unfold load_vial. rewrite E1. cbn [bind]. rewrite E2. cbn [bind].
  assert (Y : exists G1, match or_none (dc_kappa d) with Some k => w_sparsify W G (Some k) | None => Ok G end = Ok G1).
  { destruct (dc_kappa d) as [k|]; cbn [or_none]; [|eauto]. destruct (Z.eqb k 0); [eauto|]. exact (S G k eq_refl). }
  destruct Y as (G1 & ->). cbn [bind].
  assert (Z : exists G2, with_costs W n (dc_cost_function d) G1 = Ok G2).
  { unfold with_costs. destruct (String.eqb_spec (dc_cost_function d) "UNIFORM_RANDOM"); [eauto|].
    destruct (String.eqb_spec (dc_cost_function d) "MST") as [Q1|]; [destruct (M G1 Q1) as (c & ->); eexists; reflexivity|].
    destruct (String.eqb_spec (dc_cost_function d) "SEMI_MST") as [Q2|]; [destruct (SM G1 Q2) as (c & ->); eexists; reflexivity|eauto]. }
  destruct Z as (G2 & ->). cbn [bind]. eauto.
Qed.

(** ** The rounds *)

Theorem rounds_ok W R solve vs : good_files W -> forall n pr acc r out, lab_rounds W R solve n pr vs acc = (r, out) ->
  exists rs rest, rounds W R solve n vs rs rest /\ out = (acc ++ results_of rs)%list /\
    vs = (map (fun x => fst (fst x)) rs ++ rest)%list /\
    match r with
    | Ok _ => rest = []
    | Throw e => exists v rest', rest = v :: rest' /\ forall pr, load_vial W R (n + List.length rs) pr (fv_data v) = Throw e
    | UB u => exists v rest', rest = v :: rest' /\ (graph_of (load_vial W R (n + List.length rs) None (fv_data v)) = UB u \/
        exists G, graph_of (load_vial W R (n + List.length rs) None (fv_data v)) = Ok G /\ solve v G = UB u)
    | OutOfFuel => exists v rest', rest = v :: rest' /\ (graph_of (load_vial W R (n + List.length rs) None (fv_data v)) = OutOfFuel \/
        exists G, graph_of (load_vial W R (n + List.length rs) None (fv_data v)) = Ok G /\ solve v G = OutOfFuel)
    end.
Proof.
  intro GF. induction vs as [|v vs IH]; intros n pr acc r out H.
  - cbn in H. injection H as <- <-. exists [], []. split; [constructor|]. rewrite app_nil_r. repeat split.
  - cbn [lab_rounds] in H. destruct (load_vial W R n pr (fv_data v)) as [(G, pr')|e|u|] eqn:EL.
    + destruct (load_described _ _ _ _ _ _ _ GF EL) as (RT & DE).
      destruct (solve v G) as [z|e|u|] eqn:ES.
      * destruct (IH _ _ _ _ _ H) as (rs & rest & A & B & C & D). exists ((v, G, Some z) :: rs), rest.
        split; [apply (rounds_next W R solve n v vs G (Some z)); auto; [intros z' Ez; injection Ez as <-; exact ES|discriminate]|].
        split; [rewrite B, <- app_assoc; reflexivity|]. split; [cbn; congruence|].
        cbn [List.length]. replace (n + S (List.length rs)) with (S n + List.length rs) by lia. exact D.
      * destruct (IH _ _ _ _ _ H) as (rs & rest & A & B & C & D). exists ((v, G, None) :: rs), rest.
        split; [apply (rounds_next W R solve n v vs G None); auto; [discriminate|eauto]|].
        split; [exact B|]. split; [cbn; congruence|].
        cbn [List.length]. replace (n + S (List.length rs)) with (S n + List.length rs) by lia. exact D.
      * injection H as <- <-. exists [], (v :: vs). split; [constructor|]. cbn [results_of List.length map]. rewrite app_nil_r, Nat.add_0_r.
        repeat split. exists v, vs. split; [reflexivity|]. right. exists G. split; [|exact ES].
        rewrite <- (load_graph W R n pr) by exact GF. rewrite EL. reflexivity.
      * injection H as <- <-. exists [], (v :: vs). split; [constructor|]. cbn [results_of List.length map]. rewrite app_nil_r, Nat.add_0_r.
        repeat split. exists v, vs. split; [reflexivity|]. right. exists G. split; [|exact ES].
        rewrite <- (load_graph W R n pr) by exact GF. rewrite EL. reflexivity.
    + injection H as <- <-. exists [], (v :: vs). split; [constructor|]. cbn [results_of List.length map]. rewrite app_nil_r, Nat.add_0_r.
      repeat split. exists v, vs. split; [reflexivity|]. intro p. apply graph_of_throw. rewrite (load_graph W R n p) by exact GF.
      rewrite <- (load_graph W R n pr) by exact GF. rewrite EL. reflexivity.
    + injection H as <- <-. exists [], (v :: vs). split; [constructor|]. cbn [results_of List.length map]. rewrite app_nil_r, Nat.add_0_r.
      repeat split. exists v, vs. split; [reflexivity|]. left. rewrite <- (load_graph W R n pr) by exact GF. rewrite EL. reflexivity.
    + injection H as <- <-. exists [], (v :: vs). split; [constructor|]. cbn [results_of List.length map]. rewrite app_nil_r, Nat.add_0_r.
      repeat split. exists v, vs. split; [reflexivity|]. left. rewrite <- (load_graph W R n pr) by exact GF. rewrite EL. reflexivity.
Qed.
