(** * Properties_Stats: statistics files (C26), node statistics (C27), bounds (C28) *)
From Verif Require Import Base P_Base M_Stats M_Events Spec_Stats P_Stats P_Events.
Open Scope string_scope.
Open Scope list_scope.
Open Scope Z_scope.

(** ** C26: CSV files *)

(** The file of node statistics, read by any CSV reader, has one record per node, in order,
    every field under its own name; nothing is written without the directory.  [show] prints
    doubles; its text has no comma and no newline. *)
Theorem C26_node_csv : forall (D : Type) (show : D -> string) (l : list (node_stats D)),
  (forall d, clean (show d)) ->
  write_node_csv show false l = None /\
  exists text, write_node_csv show true l = Some text /\
    read_csv text = Some (map (node_record show) l).
Proof. intros D show l H. split; [reflexivity|]. exact (node_csv_read show H l). Qed.
Print Assumptions C26_node_csv.

(** The file of bounds. *)
Theorem C26_bounds_csv : forall (D : Type) (show : D -> string) strf tz (l : list (bounds D)),
  (forall d, clean (show d)) -> (forall t, clean (strf t)) ->
  write_bounds_csv show (time_to_string strf tz) false l = None /\
  exists text, write_bounds_csv show (time_to_string strf tz) true l = Some text /\
    read_csv text = Some (map (bounds_record show (time_to_string strf tz)) l).
Proof.
  intros D show strf tz l H H'. split; [reflexivity|]. apply (bounds_csv_read show H).
  intro t. now apply stamp_clean.
Qed.
Print Assumptions C26_bounds_csv.

(** The numbers can be read back from their texts. *)
Theorem C26_numbers_read_back : forall z, undec (dec z) = Some z /\ clean (dec z).
Proof. intro z. split; [apply undec_dec|apply dec_clean]. Qed.
Print Assumptions C26_numbers_read_back.

(** Example: doubles are printed as integers, times as seconds. *)
Definition two_nodes : list (node_stats Z) := [mkNode 10 1 4 5 1 2 3 1 99; mkNode (-7) 2 0 8 0 0 0 1 98].
Example C26_csv_case : (forall d, clean (dec d)) /\
  match write_node_csv dec true two_nodes with
  | None => False
  | Some text => read_csv text = Some
     [[("lower_bound", "10"); ("node_id", "1"); ("num_sec_disjoint_tour", "4");
       ("num_sec_maxflow_mincut", "5"); ("num_cost_cover_disjoint_paths", "1");
       ("num_cost_cover_shortest_paths", "2"); ("num_cost_cover_steiner_tree", "3");
       ("parent_id", "1"); ("upper_bound", "99")];
      [("lower_bound", "-7"); ("node_id", "2"); ("num_sec_disjoint_tour", "0");
       ("num_sec_maxflow_mincut", "8"); ("num_cost_cover_disjoint_paths", "0");
       ("num_cost_cover_shortest_paths", "0"); ("num_cost_cover_steiner_tree", "0");
       ("parent_id", "1"); ("upper_bound", "98")]]
  end /\
  write_bounds_csv dec (time_to_string dec 0) true [mkBounds 1005 2100 3 4 7] =
    Some ("start_timestamp,end_timestamp,lower_bound,upper_bound,node_id" ++
          String newline ("1.5Z,2.100Z,3,4,7" ++ String newline ""))%string.
Proof. split; [apply dec_clean|]. vm_compute. auto. Qed.

(** ** C26: YAML file *)

(** A summary written and read back by the C++ code: everything is unchanged except that
    [num_cost_cover_shortest_paths] and [nconss_presolve_disjoint_paths] are exchanged, so the
    value is unchanged exactly if these two agree.  Missing for the full claim: the general
    case, which is false. *)
Theorem C26_yaml_round_trip_partial :
  forall (D : Type) (show : D -> string) read (s : summary D),
  (forall d, read (show d) = Some d) -> summary_ok s ->
  exists s', read_summary_yaml read (write_summary_yaml show true s) = Ok s' /\
    sm_cc_shortest s' = sm_pre_disjoint s /\ sm_pre_disjoint s' = sm_cc_shortest s /\
    (s' = s <-> sm_cc_shortest s = sm_pre_disjoint s) /\
    sm_status s' = sm_status s /\ sm_lower s' = sm_lower s /\ sm_upper s' = sm_upper s /\
    sm_cc_disjoint s' = sm_cc_disjoint s /\ sm_pre_shortest s' = sm_pre_shortest s /\
    sm_cycle_cover s' = sm_cycle_cover s /\ sm_nodes s' = sm_nodes s /\
    sm_sec_disjoint s' = sm_sec_disjoint s /\ sm_sec_maxflow s' = sm_sec_maxflow s.
Proof.
  intros D show read s H Hok. eexists. split; [exact (yaml_read show read H s Hok)|]. cbn.
  split; [reflexivity|]. split; [reflexivity|]. split.
  - split; [intro E; apply (f_equal sm_cc_shortest) in E; cbn in E; congruence|].
    destruct s. cbn in *. intros ->. reflexivity.
  - auto 12.
Qed.
Print Assumptions C26_yaml_round_trip_partial.

Definition a_summary : summary Z := mkSummary 10 (-5) 17 1 2 3 4 5 600 7 8.
Theorem C26_yaml_round_trip_refuted : exists (s : summary Z),
  summary_ok s /\ (forall d, undec (dec d) = Some d) /\
  exists s', read_summary_yaml undec (write_summary_yaml dec true s) = Ok s' /\ s' <> s.
Proof.
  exists a_summary. split; [vm_compute; intuition discriminate|]. split; [apply undec_dec|].
  eexists. split; [vm_compute; reflexivity|discriminate].
Qed.
Print Assumptions C26_yaml_round_trip_refuted.

(** The Python class reads the file the C++ code wrote without change. *)
Theorem C26_python_reads_yaml : forall (D : Type) (show : D -> string) read (s : summary D),
  (forall d, read (show d) = Some d) ->
  py_from_yaml read (write_summary_yaml show true s) = Ok s.
Proof. intros. now apply yaml_python. Qed.
Print Assumptions C26_python_reads_yaml.

(** Without the directory nothing is written, and reading what is not there is not the exception
    it is meant to be (stats.cpp:26) but undefined. *)
Theorem C26_missing_file_refuted : forall (D : Type) (show : D -> string) (read : string -> option D) (s : summary D),
  write_summary_yaml show false s = None /\
  read_summary_yaml read (write_summary_yaml show false s) = UB Uninit.
Proof. intros. split; reflexivity. Qed.
Print Assumptions C26_missing_file_refuted.

Example C26_yaml_case : summary_ok a_summary /\ (forall d, undec (dec d) = Some d) /\
  read_summary_yaml undec (write_summary_yaml dec true a_summary) = Ok (mkSummary 10 (-5) 17 1 3 2 4 5 600 7 8) /\
  py_from_yaml undec (write_summary_yaml dec true a_summary) = Ok a_summary.
Proof. split; [vm_compute; intuition discriminate|]. split; [apply undec_dec|]. vm_compute. auto. Qed.

(** ** C26: time stamps *)

(** Different times have different texts ([strf] prints the date and time of day). *)
Theorem C26_stamps_injective : forall strf tz t t',
  (forall a b, strf a = strf b -> a = b) ->
  (forall a, Forall (fun c => c <> "."%char) (list_ascii_of_string (strf a))) ->
  time_to_string strf tz t = time_to_string strf tz t' -> t = t'.
Proof. exact time_to_string_inj. Qed.
Print Assumptions C26_stamps_injective.
Example C26_stamps_case : (forall a b, dec a = dec b -> a = b) /\
  (forall a, Forall (fun c => c <> "."%char) (list_ascii_of_string (dec a))) /\
  time_to_string dec 3600 1700000000042 = "1700003600.42Z".
Proof. split; [exact dec_inj|]. split; [exact dec_no_dot|]. vm_compute. reflexivity. Qed.

(** The milliseconds are not padded: read as a decimal fraction, as ISO 8601 does, an earlier
    time gets a later text, and different times the same instant. *)
Theorem C26_stamps_unpadded_refuted : forall (strf : Z -> string) tz sec, 0 <= sec ->
  exists t1 t2 t3 f1 f2 f3,
  t1 < t2 < t3 /\ Z.quot t1 1000 = sec /\ Z.quot t2 1000 = sec /\ Z.quot t3 1000 = sec /\
  time_to_string strf tz t1 = (strf (sec + tz) ++ "." ++ f1 ++ "Z")%string /\
  time_to_string strf tz t2 = (strf (sec + tz) ++ "." ++ f2 ++ "Z")%string /\
  time_to_string strf tz t3 = (strf (sec + tz) ++ "." ++ f3 ++ "Z")%string /\
  smaller_fraction f3 f2 /\ same_fraction f1 f2.
Proof.
  intros strf tz sec Hs. exists (1000 * sec + 9), (1000 * sec + 90), (1000 * sec + 100), "9", "90", "100".
  assert (Q : forall k, 0 <= k < 1000 -> Z.quot (1000 * sec + k) 1000 = sec /\ Z.rem (1000 * sec + k) 1000 = k).
  { intros k Hk. rewrite Z.quot_div_nonneg, Z.rem_mod_nonneg by lia.
    pose proof (Z.div_unique_pos (1000 * sec + k) 1000 sec k ltac:(lia) ltac:(lia)).
    pose proof (Z.mod_unique_pos (1000 * sec + k) 1000 sec k ltac:(lia) ltac:(lia)). lia. }
  split; [lia|]. unfold time_to_string.
  destruct (Q 9) as [-> ->]; [lia|]. destruct (Q 90) as [-> ->]; [lia|]. destruct (Q 100) as [-> ->]; [lia|].
  do 6 (split; [reflexivity|]). split.
  - exists 100, 90. vm_compute. auto.
  - exists 9, 90. vm_compute. auto.
Qed.
Print Assumptions C26_stamps_unpadded_refuted.

(** The text is local time but ends in Z: away from UTC it is the UTC text of another time. *)
Theorem C26_stamps_local_refuted : forall (strf : Z -> string) tz t, 0 < tz -> 0 <= t ->
  exists t', t' <> t /\ time_to_string strf tz t = time_to_string strf 0 t'.
Proof.
  intros strf tz t Htz Ht. exists (t + tz * 1000). split; [lia|]. unfold time_to_string.
  rewrite !Z.quot_div_nonneg, !Z.rem_mod_nonneg by lia. rewrite Z.div_add, Z.mod_add by lia.
  now rewrite Z.add_0_r.
Qed.
Print Assumptions C26_stamps_local_refuted.

(** ** C27 *)

(** If no entry is written again after cuts were counted in it, the vector has one entry for
    each number up to the largest, every entry has exactly the cuts counted at its number, and
    the totals in the summary are the sums of all increments (unsigned arithmetic). *)
Theorem C27_counts_kept_partial : forall (D : Type) (zero : D) es,
  scip_events 0 es -> never_rewritten es ->
  exists st, run_events zero es = Ok st /\ List.length st = Z.to_nat (max_id es) /\
  (forall i s, nth_error st i = Some s ->
     ns_sec_disjoint s = u32 (disjoint_at (Z.of_nat i + 1) es) /\
     ns_sec_maxflow s = u32 (maxflow_at (Z.of_nat i + 1) es)) /\
  num_disjoint_secs st = u32 (disjoint_total es) /\
  num_maxflow_secs st = u32 (maxflow_total es) /\
  (forall status lo up sp dp cc nn,
     sm_sec_disjoint (get_summary_stats status lo up (Some st) sp dp cc nn) = u32 (disjoint_total es) /\
     sm_sec_maxflow (get_summary_stats status lo up (Some st) sp dp cc nn) = u32 (maxflow_total es)).
Proof.
  intros D zero es H1 H2. destruct (run_kept zero es H1 H2) as (st & E & Hl & He & Hd & Hf).
  exists st. split; [exact E|]. split; [exact Hl|]. split; [exact He|].
  rewrite num_disjoint_sum, num_maxflow_sum. split; [exact Hd|]. split; [exact Hf|].
  intros. unfold get_summary_stats. rewrite num_disjoint_sum, num_maxflow_sum, Hd, Hf.
  destruct sp as [[? ?]|], dp as [[? ?]|]; cbn; auto.
Qed.
Print Assumptions C27_counts_kept_partial.

(** Without that assumption: every run succeeds, and an entry has the data of the last event
    that wrote it and the cuts counted at its number since then. *)
Theorem C27_last_write : forall (D : Type) (zero : D) pre (n : node D) post,
  scip_events 0 (pre ++ NodeEvent n :: post) -> writes pre n ->
  (forall post1 m post2, post = post1 ++ NodeEvent m :: post2 -> nd_id m = nd_id n ->
     ~ writes (pre ++ NodeEvent n :: post1) m) ->
  exists st s, run_events zero (pre ++ NodeEvent n :: post) = Ok st /\
    nth_error st (Z.to_nat (nd_id n - 1)) = Some s /\
    entry_of n (u32 (disjoint_at (nd_id n) post)) (u32 (maxflow_at (nd_id n) post)) s.
Proof. intros D zero. exact (run_last_write zero). Qed.
Print Assumptions C27_last_write.

(** A number that was passed over has an entry with the cuts but no data, not even its number. *)
Theorem C27_never_written : forall (D : Type) (zero : D) es id,
  scip_events 0 es -> 1 <= id <= max_id es ->
  (forall pre n post, es = pre ++ NodeEvent n :: post -> nd_id n = id -> ~ writes pre n) ->
  exists st s, run_events zero es = Ok st /\ nth_error st (Z.to_nat (id - 1)) = Some s /\
    ns_lower s = zero /\ ns_upper s = zero /\ ns_id s = 0 /\ ns_parent s = 0 /\
    ns_sec_disjoint s = u32 (disjoint_at id es) /\ ns_sec_maxflow s = u32 (maxflow_at id es).
Proof. intros D zero. exact (run_never_written zero). Qed.
Print Assumptions C27_never_written.

(** Root, its right child 3 before its left child 2. *)
Definition tree_run : list (event Z) :=
  [NodeEvent (mkTreeNode 1 None 5 100); IncDisjoint 1 2; IncMaxflow 1 3;
   NodeEvent (mkTreeNode 3 (Some 1) 6 90); IncMaxflow 3 4;
   NodeEvent (mkTreeNode 2 (Some 1) 7 80); IncDisjoint 2 1].
Example C27_case : scip_events 0 tree_run /\ never_rewritten tree_run /\
  run_events 0 tree_run = Ok
    [mkNode 5 1 2 3 0 0 0 1 100; mkNode 0 0 1 0 0 0 0 0 0; mkNode 6 3 0 4 0 0 0 1 90].
Proof.
  split; [cbn; intuition (try lia; discriminate)|]. split; [|vm_compute; reflexivity].
  intros before n after E Hw. unfold tree_run in E.
  do 7 (destruct before as [|? before]; [cbn in E; try discriminate; injection E as <- <-; cbn; auto;
    exfalso; specialize (Hw (mkTreeNode 3 (Some 1) 6 90)); cbn in Hw; lia |]; cbn in E; injection E as <- E).
  destruct before; discriminate.
Qed.

(** Counts are lost: the event after the root was solved writes its entry again. *)
Theorem C27_counts_lost_refuted : exists (es : list (event Z)) st,
  scip_events 0 es /\ disjoint_total es = 2 /\ run_events 0 es = Ok st /\ num_disjoint_secs st = 0.
Proof.
  exists [NodeEvent (mkTreeNode 1 None 5 100); IncDisjoint 1 2; NodeEvent (mkTreeNode 1 None 6 100)].
  eexists. split; [cbn; intuition (try lia; discriminate)|]. split; [reflexivity|].
  split; [vm_compute; reflexivity|]. vm_compute; reflexivity.
Qed.
Print Assumptions C27_counts_lost_refuted.

(** Not only the root's: of every node that has the largest number so far. *)
Theorem C27_counts_lost_everywhere : forall (D : Type) (zero : D) pre (n n' : node D) mid,
  scip_events 0 (pre ++ NodeEvent n :: mid ++ [NodeEvent n']) -> writes pre n -> nd_id n' = nd_id n ->
  node_events mid = [] ->
  exists st s, run_events zero (pre ++ NodeEvent n :: mid ++ [NodeEvent n']) = Ok st /\
    nth_error st (Z.to_nat (nd_id n - 1)) = Some s /\ ns_sec_disjoint s = 0 /\ ns_sec_maxflow s = 0.
Proof.
  intros D zero pre n n' mid He Hw Hid Hm.
  destruct (run_last_write zero (pre ++ NodeEvent n :: mid) n' []) as (st & s & E & Hs & Hent).
  - now rewrite <- app_assoc.
  - intros m Hin.
    assert (A : forall a b : list (event D), node_events (a ++ b) = node_events a ++ node_events b).
    { clear. induction a as [|[] a IH]; intro b; cbn; congruence. }
    rewrite A in Hin. cbn in Hin. rewrite Hm in Hin. apply in_app_or in Hin as [Hin|[<-|[]]]; [|lia].
    rewrite Hid. now apply Hw.
  - intros [|? post1] m post2 H; discriminate.
  - exists st, s. rewrite <- app_assoc in E. cbn [app] in E. split; [exact E|].
    rewrite <- Hid. split; [exact Hs|]. destruct Hent as (_ & _ & _ & H1 & H2 & _). auto.
Qed.
Print Assumptions C27_counts_lost_everywhere.

(** A node visited after one with a larger number has no entry of its own. *)
Theorem C27_entry_missing_refuted : exists (es : list (event Z)) st n s,
  scip_events 0 es /\ In (NodeEvent n) es /\ run_events 0 es = Ok st /\
  nth_error st (Z.to_nat (nd_id n - 1)) = Some s /\ ns_id s <> nd_id n.
Proof.
  exists tree_run. eexists. exists (mkTreeNode 2 (Some 1) 7 80). eexists.
  split; [cbn; intuition (try lia; discriminate)|]. split; [cbn; auto 10|].
  split; [vm_compute; reflexivity|]. split; [reflexivity|discriminate].
Qed.
Print Assumptions C27_entry_missing_refuted.

(** Counting before the first node event is undefined behaviour. *)
Theorem C27_increment_unannounced_refuted : exists es : list (event Z), run_events 0 es = UB VecOOB.
Proof. exists [IncDisjoint 1 1]. reflexivity. Qed.
Print Assumptions C27_increment_unannounced_refuted.

(** ** C28 *)

(** One record per event, in order, with the bounds and node of the event; the first starts
    when the handler was made, every other at the second clock reading of the event before. *)
Theorem C28_records : forall (D : Type) t0 (es : list (lp_event D)),
  List.length (snd (run_bounds t0 es)) = List.length es /\
  (forall i e, nth_error es i = Some e -> exists b, nth_error (snd (run_bounds t0 es)) i = Some b /\
     b_end b = lp_now1 e /\ b_lower b = lp_lower e /\ b_upper b = lp_upper e /\
     (0 <= lp_node e < 4294967296 -> b_node b = lp_node e) /\
     match i with
     | O => b_start b = t0
     | S j => forall e', nth_error es j = Some e' -> b_start b = lp_now2 e'
     end).
Proof.
  intros D t0 es. destruct (run_bounds_spec t0 es) as (H1 & _ & H3). split; [exact H1|].
  intros i e He. destruct (H3 i e He) as (b & Hb & Hs & R1 & R2 & R3 & R4).
  exists b. split; [exact Hb|]. split; [exact R1|]. split; [exact R2|]. split; [exact R3|].
  split. { intro Hr. rewrite R4. now apply u32_small. }
  destruct i as [|j]; [exact Hs|]. intros e' He'. rewrite Hs. now apply last_now2.
Qed.
Print Assumptions C28_records.

(** With a clock that never goes back, the intervals are well formed, in order and do not
    overlap. *)
Theorem C28_ordered : forall (D : Type) t0 (es : list (lp_event D)),
  monotone (readings t0 es) ->
  (forall i b, nth_error (snd (run_bounds t0 es)) i = Some b -> t0 <= b_start b <= b_end b) /\
  (forall i j b b', (i < j)%nat -> nth_error (snd (run_bounds t0 es)) i = Some b ->
     nth_error (snd (run_bounds t0 es)) j = Some b' -> b_end b <= b_start b').
Proof.
  intros D t0 es Hm. destruct (C28_records D t0 es) as [Hl Hr].
  assert (X : forall i b, nth_error (snd (run_bounds t0 es)) i = Some b ->
    nth_error (readings t0 es) (2 * i) = Some (b_start b) /\
    nth_error (readings t0 es) (2 * i + 1) = Some (b_end b)).
  { intros i b Hb. assert (Hi : (i < List.length es)%nat) by (rewrite <- Hl; apply nth_error_Some; congruence).
    destruct (nth_error es i) as [e|] eqn:Ee; [|apply nth_error_None in Ee; lia].
    destruct (Hr i e Ee) as (b0 & Hb0 & R1 & _ & _ & _ & R5).
    rewrite Hb in Hb0. injection Hb0 as <-. destruct (readings_nth t0 es i e Ee) as [P1 P2].
    rewrite R1. split; [|exact P1].
    destruct i as [|j]; [now rewrite R5|].
    destruct (nth_error es j) as [e'|] eqn:Ee'; [|apply nth_error_None in Ee'; lia].
    destruct (readings_nth t0 es j e' Ee') as [Q1 Q2]. rewrite (R5 e' eq_refl).
    replace (2 * S j)%nat with (2 * j + 2)%nat by lia. exact Q2. }
  split.
  - intros i b Hb. destruct (X i b Hb) as [X1 X2]. split.
    + apply (Hm 0%nat (2 * i)%nat); [lia|reflexivity|exact X1].
    + apply (Hm (2 * i)%nat (2 * i + 1)%nat); [lia|exact X1|exact X2].
  - intros i j b b' Hij Hb Hb'. destruct (X i b Hb) as [_ X2]. destruct (X j b' Hb') as [X1 _].
    apply (Hm (2 * i + 1)%nat (2 * j)%nat); [lia|exact X2|exact X1].
Qed.
Print Assumptions C28_ordered.

Definition lp_run : list (lp_event Z) := [mkLP 105 1 9 1 105; mkLP 120 2 9 1 121; mkLP 130 2 8 2 130].
Example C28_case : monotone (readings 100 lp_run) /\
  snd (run_bounds 100 lp_run) = [mkBounds 100 105 1 9 1; mkBounds 105 120 2 9 1; mkBounds 121 130 2 8 2].
Proof.
  split; [|reflexivity]. apply sortedb_spec. reflexivity.
Qed.

(** An interval need not start when the one before ended. *)
Theorem C28_contiguous_refuted : exists t0 (es : list (lp_event Z)) b b',
  monotone (readings t0 es) /\ snd (run_bounds t0 es) = [b; b'] /\ b_end b < b_start b'.
Proof.
  exists 100, [mkLP 105 1 9 1 106; mkLP 120 2 9 1 121]. do 2 eexists. split; [|split; [reflexivity|cbn; lia]].
  apply sortedb_spec. reflexivity.
Qed.
Print Assumptions C28_contiguous_refuted.
