(** * P_SummaryCase: cases about the statistics and tables of the data sets *)
From Coq Require Import String QArith Sorting.
From Verif Require Import Base M_Python M_PyWrap M_RunAlg M_Compare M_Stats M_Dataset M_Csv M_Tables M_Labels M_Summary
  Spec_Lab Spec_Tables Spec_Labels Spec_Summary P_TablesCase P_Summary.
Open Scope nat_scope.
Open Scope string_scope.

(** Data of the cases (no model). *)
Definition graph1 (n : nat) : pygraph := mkPy (map (fun i => (i, [])) (seq 0 n)) (fun _ _ => None) (fun _ => None).
Definition stat1 (root n : nat) : instance_stats * Q * Q :=
  (mkInst root n 10 20 5 (Z.of_nat root, 4)%Z 3 root n 10 15 (Z.of_nat n, 40)%Z, (1 # 2)%Q, (1 # 3)%Q).
Definition sources1 : sources := mkSources
  (fun name => Ok (graph1 0, [if String.eqb name "laqbbA" then 1 else 2]))
  (fun gen name => Ok (graph1 0, [if String.eqb name "eil51" then 1 else 2]))
  ["gen2"; "gen3"]
  (fun g k => match k with Some z => Ok (graph1 (Z.to_nat z)) | None => Ok g end)
  (fun g => Ok (graph1 (List.length (pg_adj g) + 1)))
  (fun g root => Ok (stat1 root (List.length (pg_adj g)))).
Definition sources2 : sources := mkSources
  (fun name => Ok (graph1 0, if String.eqb name "laqkxA" then [] else [1])) (src_oplib sources1) (src_generations sources1)
  (src_sparsify sources1) (src_mst sources1) (src_stats sources1).

Definition table_rows (S : sources) (d : dataset_name) : option (list row) := match stats_of_dataset S d with Ok rows => Some rows | _ => None end.
Definition env1 (e : exn) (parent : bool) : tables_env := mkTenv
  (fun d => match d with Londonaq => table_rows sources1 Londonaq | Tspwplib => None end)
  (fun d x => match d, x with Tspwplib, CostCover => Some [good_row] | _, _ => None end) parent e.
Definition env2 : tables_env := mkTenv (fun _ => None)
  (fun d x => match d, x with
    | Londonaq, CostCover => Some [rset good_row "cost_cover_shortest_path" (CBool true)]
    | Tspwplib, CostCover => Some [good_row] | _, _ => None end) true FileNotFoundErrorPy.
Definition csv1 : list row :=
  [[("cost_function", CStr "MST"); ("kappa", CInt 5); ("disjoint_prize_ratio", CNum (1 # 2)); ("preprocessed_prize_ratio", CNum 1)];
   [("cost_function", CNaN); ("kappa", CInt 7); ("disjoint_prize_ratio", CNum (1 # 3)); ("preprocessed_prize_ratio", CNum 1)];
   [("cost_function", CStr "MST"); ("kappa", CInt 5); ("disjoint_prize_ratio", CNaN); ("preprocessed_prize_ratio", CNum (1 # 2))];
   [("cost_function", CStr "EUC_2D"); ("kappa", CInt 10); ("disjoint_prize_ratio", CNum (1 # 4)); ("preprocessed_prize_ratio", CNum 1)]].

Lemma londonaq_case : Forall2 (londonaq_measured sources1) londonaq_graphs [stat1 1 0; stat1 2 0; stat1 2 0; stat1 2 0] /\
  exists rows f, stats_of_dataset sources1 Londonaq = Ok rows /\ dataset_table Londonaq rows = Ok f /\
    exists l ns ix fm, f = (mkT (Flat l) ns ix, fm) /\ nth_error l 0 = Some ("$|V(G)|$", [whole 1; whole 2; whole 2; whole 2]).
Proof.
  split.
  - unfold londonaq_graphs. repeat constructor; eexists _, _, []; (split; [reflexivity|]); reflexivity.
  - eexists _, _. split; [vm_compute; reflexivity|]. split; [vm_compute; reflexivity|]. eexists _, _, _, _. split; [reflexivity|]. reflexivity.
Qed.

Lemma tspwplib_case : (forall name gen cost kappa, In name tspwplib_graphs -> In gen (src_generations sources1) -> In cost the_costs ->
     In kappa the_kappas -> tspwplib_measured sources1 name gen cost kappa (stat1 (if String.eqb name "eil51" then 1 else 2)
       (Z.to_nat kappa + if String.eqb cost "MST" then 1 else 0))) /\
  exists rows m ns ix fm, stats_of_dataset sources1 Tspwplib = Ok rows /\ List.length rows = 180 /\
    dataset_table Tspwplib rows = Ok (mkT (Multi m) ns ix, fm) /\ List.length (m_cols m) = 4.
Proof.
  split.
  - intros name gen cost kappa _ _ Ic Ik.
    assert (L : forall n, List.length (pg_adj (graph1 n)) = n) by (intros; unfold graph1; simpl; rewrite map_length, seq_length; reflexivity).
    destruct Ic as [<-|[<-|[]]].
    + exists (graph1 0), (if String.eqb name "eil51" then 1 else 2), [], (graph1 (Z.to_nat kappa)), (graph1 (Z.to_nat kappa)).
      split; [reflexivity|]. split; [reflexivity|]. split; [discriminate|]. split; [reflexivity|]. change (Ok (stat1 (if String.eqb name "eil51" then 1 else 2) (List.length (pg_adj (graph1 (Z.to_nat kappa))))) = Ok (stat1 (if String.eqb name "eil51" then 1 else 2) (Z.to_nat kappa + 0))). rewrite L, Nat.add_0_r. reflexivity.
    + exists (graph1 0), (if String.eqb name "eil51" then 1 else 2), [], (graph1 (Z.to_nat kappa)), (graph1 (Z.to_nat kappa + 1)).
      split; [reflexivity|]. split; [reflexivity|]. split; [intros _; simpl; rewrite map_length, seq_length; reflexivity|].
      split; [congruence|]. change (Ok (stat1 (if String.eqb name "eil51" then 1 else 2) (List.length (pg_adj (graph1 (Z.to_nat kappa + 1))))) = Ok (stat1 (if String.eqb name "eil51" then 1 else 2) (Z.to_nat kappa + 1))). rewrite L. reflexivity.
  - eexists _, _, _, _, _. split; [vm_compute; reflexivity|]. split; [reflexivity|]. split; [vm_compute; reflexivity|]. reflexivity.
Qed.

Lemma statistics_case : ~ all_measured sources2 Londonaq /\ all_measured sources1 Londonaq /\
  stats_command sources2 Londonaq (fun _ => None) = (fun _ => None, Throw IndexErrorPy).
Proof.
  split; [|split; [|reflexivity]].
  - intros H. destruct (H "laqkxA") as [x [g [root [ds [E _]]]]]; [simpl; auto|]. discriminate E.
  - intros name I. eexists. eexists _, _, []. split; reflexivity.
Qed.

Lemma env1_good : forall e p, files_good (env1 e p).
Proof.
  intros e p. split; [|split; [|split]].
  - intros [|] rows H; [|discriminate H]. injection H as <-. eexists. vm_compute. reflexivity.
  - intros [|] H; [contradiction H; reflexivity|]. eexists. vm_compute. reflexivity.
  - intros [|] H; contradiction H; reflexivity.
  - intros [|] H; contradiction H; reflexivity.
Qed.

Lemma all_case : files_good (env1 FileNotFoundErrorPy true) /\
  (exists doc, due (env1 FileNotFoundErrorPy true) "tspwplib_cost_cover.tex" doc) /\
  (forall doc, ~ due (env1 FileNotFoundErrorPy true) "londonaq_cost_cover.tex" doc).
Proof.
  split; [apply env1_good|]. split.
  - eexists. apply (cost_cover_due _ Tspwplib); [discriminate|vm_compute; reflexivity].
  - intros doc D. apply due_in in D. vm_compute in D. intuition discriminate.
Qed.

Lemma directory_case : generate_all_tables (env1 OSErrorPy true) (mkTs false (fun _ => None)) = (mkTs false (fun _ => None), Throw OSErrorPy) /\
  generate_all_tables (env1 FileNotFoundErrorPy false) (mkTs false (fun _ => None)) = (mkTs false (fun _ => None), Ok tt).
Proof. split; vm_compute; reflexivity. Qed.

Lemma stops_case : cost_cover_doc env2 Londonaq = Throw ValueErrorPy /\
  (exists doc, due env2 "tspwplib_cost_cover.tex" doc) /\
  snd (generate_all_tables env2 (mkTs true (fun _ => None))) = Throw ValueErrorPy /\
  ts_files (fst (generate_all_tables env2 (mkTs true (fun _ => None)))) "tspwplib_cost_cover.tex" = None.
Proof.
  split; [vm_compute; reflexivity|]. split; [|split; vm_compute; reflexivity].
  eexists. apply (cost_cover_due _ Tspwplib); [discriminate|vm_compute; reflexivity].
Qed.

Lemma csv_case : Forall2 (fun r (t : rtuple) => let '(c, k, d, p) := t in ratio_read r c k d p) csv1
    [(Some "MST", Some 5%Z, Some (1 # 2), Some 1%Q); (None, Some 7%Z, Some (1 # 3), Some 1%Q); (Some "MST", Some 5%Z, None, Some (1 # 2));
     (Some "EUC_2D", Some 10%Z, Some (1 # 4), Some 1%Q)] /\
  exists m hs, dataset_table Tspwplib csv1 = Ok (mkT (Multi m) [Some "kappa"] [[VNum (Fin 5)]; [VNum (Fin 10)]], [FmtL; FmtGap; FmtGap; FmtGap; FmtGap]) /\
    headed m hs /\ map snd hs = [[VNum NaN; VNum (Fin (1 # 4))]; [VNum NaN; VNum (Fin 1)]; [VNum (Fin (1 # 2)); VNum NaN]; [VNum (Fin (3 # 4)); VNum NaN]].
Proof.
  assert (F : Forall2 (fun r (t : rtuple) => let '(c, k, d, p) := t in ratio_read r c k d p) csv1
    [(Some "MST", Some 5%Z, Some (1 # 2), Some 1%Q); (None, Some 7%Z, Some (1 # 3), Some 1%Q); (Some "MST", Some 5%Z, None, Some (1 # 2));
     (Some "EUC_2D", Some 10%Z, Some (1 # 4), Some 1%Q)]).
  { repeat constructor; eexists; split; reflexivity. }
  split; [exact F|]. destruct (tspwplib_table_ok _ _ F) as [m [ks [cs [hs [E [_ [_ [_ [_ [_ [H _]]]]]]]]]]].
  exists m, hs. assert (S : map snd hs = map snd (m_cols m)).
  { unfold headed in H. clear -H. induction H as [|a b l l' [A _] _ IH]; simpl; [reflexivity|]. rewrite A, IH. reflexivity. }
  rewrite S. change (dataset_table Tspwplib csv1) with (tspwplib_table csv1). vm_compute in E. injection E as <- _.
  split; [vm_compute; reflexivity|]. split; [exact H|]. reflexivity.
Qed.

Lemma first_lost : exists E st st' doc, files_good E /\ te_parent E = true /\ generate_all_tables E st = (st', Ok tt) /\
  due E "londonaq_dataset.tex" doc /\ ts_files st' "londonaq_dataset.tex" = None /\ ts_files st' "tspwplib_cost_cover.tex" <> None.
Proof.
  exists (env1 FileNotFoundErrorPy true), (mkTs false (fun _ => None)). eexists. eexists. split; [apply env1_good|]. split; [reflexivity|].
  split; [vm_compute; reflexivity|]. split; [|split; [reflexivity|discriminate]].
  apply (due_dataset _ Londonaq (match table_rows sources1 Londonaq with Some l => l | None => [] end)); vm_compute; reflexivity.
Qed.
