(** Converted traces and their summaries (C76). *)
From Coq Require Import Arith.
From Verif Require Import Base Tag TraceFile TraceCsv TraceCsvSpec TraceCsvProofs.
Open Scope Z_scope.

(** ** C76.  The rows are the records asked for, in order, each with the names of its reactor and its trigger. *)
Theorem C76_rows : forall table start from until l rs s, to_csv table start from until l = Ok (rs, s) ->
  Forall (fun e => 0 <= microstep e < 2 ^ 31) (filter (in_window start from until) l) ->
  rs = map (row_of table start) (filter (in_window start from until) l).
Proof. exact csv_rows. Qed.
Print Assumptions C76_rows.

(** The summary is that of these records: the number of events of each type; for each reaction of each reactor and each worker
    the number, the total, the average, the largest and the smallest of the measured times; the calls to schedule; the user
    events with their values - and nothing else. *)
Theorem C76_summary_partial : forall table start from until l rs s, to_csv table start from until l = Ok (rs, s) ->
  table_ok table -> Forall (registered table) (filter (in_window start from until) l) -> well_formed (filter (in_window start from until) l) ->
  s = expected_summary table start (filter (in_window start from until) l).
Proof. exact csv_summary. Qed.
Print Assumptions C76_summary_partial.

(** For such traces the conversion is defined, whatever their length. *)
Theorem C76_defined_partial : forall table start from until, table_ok table -> (length table <= 1024)%nat -> time_ok start -> forall l,
  Forall (in_range start) l -> number (filter (in_window start from until) l) < 2 ^ 31 ->
  Forall (registered table) (filter (in_window start from until) l) -> well_formed (filter (in_window start from until) l) -> sums_ok (filter (in_window start from until) l) ->
  exists rs s, to_csv table start from until l = Ok (rs, s).
Proof. exact csv_defined. Qed.
Print Assumptions C76_defined_partial.

(** [largest] and [smallest] are what they say. *)
Theorem C76_extremes : forall l, l <> [] -> (In (largest l) l /\ forall x, In x l -> x <= largest l) /\ (In (smallest l) l /\ forall x, In x l -> smallest l <= x).
Proof.
  intros l H. destruct l as [|x l]; [congruence|]. clear H. cbn [largest smallest]. split.
  - revert x. induction l as [|y l IH]; intros x; cbn [fold_left]; [split; [left; reflexivity|intros z [<-|[]]; lia]|]. destruct (IH (Z.max x y)) as (A & B). split.
    + destruct A as [A|A]; [|right; right; exact A]. rewrite <- A. destruct (Z.max_spec x y) as [(_ & ->)|(_ & ->)]; [right; left; reflexivity|left; reflexivity].
    + pose proof (B _ (or_introl eq_refl)). intros z [<-|[<-|Hz]]; [lia|lia|]. apply B. right. exact Hz.
  - revert x. induction l as [|y l IH]; intros x; cbn [fold_left]; [split; [left; reflexivity|intros z [<-|[]]; lia]|]. destruct (IH (Z.min x y)) as (A & B). split.
    + destruct A as [A|A]; [|right; right; exact A]. rewrite <- A. destruct (Z.min_spec x y) as [(_ & ->)|(_ & ->)]; [left; reflexivity|right; left; reflexivity].
    + pose proof (B _ (or_introl eq_refl)). intros z [<-|[<-|Hz]]; [lia|lia|]. apply B. right. exact Hz.
Qed.
Print Assumptions C76_extremes.

(** *** An example: a reactor with two reactions and an action, a user event, two workers *)
Definition ex_table : list object := [mkObject 100 0 0 [77]; mkObject 100 101 1 [97]; mkObject 200 0 2 [117]].
Definition rec (k p src dst phys trg delay : Z) : entry := mkEntry k p src dst 1000 0 phys trg delay.
Definition ex_records : list entry :=
  [rec 8 0 0 (-1) 1000 0 0; rec 9 0 0 (-1) 1010 0 0; rec 6 0 1 (-1) 1000 0 0; rec 0 100 0 0 1011 0 0; rec 3 100 0 0 1012 101 5; rec 5 200 (-1) (-1) 1013 0 42;
   rec 1 100 0 0 1015 0 0; rec 0 100 0 1 1016 0 0; rec 1 100 0 1 1018 0 0; rec 7 0 1 (-1) 1020 0 0; rec 0 100 0 0 1021 0 0; rec 1 100 0 0 1031 0 0; rec 5 200 (-1) (-1) 1032 0 8; mkEntry 0 100 0 0 999999 0 1040 0 0].
Definition ex_window : list entry := filter (in_window 1000 NEVER 100) ex_records.
Example C76_ex : to_csv ex_table 1000 NEVER 100 ex_records =
    Ok (map (row_of ex_table 1000) ex_window, expected_summary ex_table 1000 ex_window) /\ length ex_window = 13%nat /\
  expected_reactions ex_table ex_window = [LReaction (Named [77]) 0 2 14 7 10 4; LReaction (Named [77]) 1 1 2 2 2 2] /\
  expected_schedules ex_table ex_window = [LSchedule (Named [97]) 1] /\
  expected_users ex_table ex_window = [LUser (Named [117]) 2 (Some (50, 25, 42, 8))] /\
  expected_waits ex_window = [LWait 0 true 1 10 10 10 10; LWait 1 false 1 20 20 20 20].
Proof. vm_compute. repeat split. Qed.
Example C76_ex_hypotheses : table_ok ex_table /\ Forall (registered ex_table) ex_window /\ well_formed ex_window /\ Forall (in_range 1000) ex_records /\ sums_ok ex_window.
Proof.
  assert (Rf : forall p d, filter (of_reaction p d) ex_window = if (p =? 100) && (d =? 0) then [rec 0 100 0 0 1011 0 0; rec 1 100 0 0 1015 0 0; rec 0 100 0 0 1021 0 0; rec 1 100 0 0 1031 0 0] else if (p =? 100) && (d =? 1) then [rec 0 100 0 1 1016 0 0; rec 1 100 0 1 1018 0 0] else []).
  { intros p d. destruct (Z.eqb_spec p 100) as [->|Np].
    - destruct (Z.eqb_spec d 0) as [->|N0]; [vm_compute; reflexivity|]. destruct (Z.eqb_spec d 1) as [->|N1]; [vm_compute; reflexivity|]. apply filter_none. intros e He. unfold of_reaction. destruct (is_reaction e) eqn:R; [|reflexivity].
      assert (D : dst_id e = 0 \/ dst_id e = 1) by (let v := eval vm_compute in ex_window in change ex_window with v in He; cbn [In] in He; repeat (destruct He as [<-|He]; [cbn in R |- *; (discriminate || tauto)|]); destruct He).
      replace (dst_id e =? d) with false by (symmetry; apply Z.eqb_neq; lia). apply andb_false_r.
    - apply filter_none. intros e He. unfold of_reaction. destruct (is_reaction e) eqn:R; [|reflexivity].
      assert (D : pointer e = 100) by (let v := eval vm_compute in ex_window in change ex_window with v in He; cbn [In] in He; repeat (destruct He as [<-|He]; [cbn in R |- *; (discriminate || reflexivity)|]); destruct He).
      replace (pointer e =? p) with false by (symmetry; apply Z.eqb_neq; lia). reflexivity. }
  assert (Wf : forall w a, filter (of_worker w a) ex_window = if (w =? 0) && a then [rec 8 0 0 (-1) 1000 0 0; rec 9 0 0 (-1) 1010 0 0] else if (w =? 1) && negb a then [rec 6 0 1 (-1) 1000 0 0; rec 7 0 1 (-1) 1020 0 0] else []).
  { intros w a. let v := eval vm_compute in ex_window in change ex_window with v. destruct a, w as [|[w|w|]|w]; reflexivity. }
  assert (Uf : forall p, filter (of_user p) ex_window = if p =? 200 then [rec 5 200 (-1) (-1) 1013 0 42; rec 5 200 (-1) (-1) 1032 0 8] else []).
  { intros p. destruct (Z.eqb_spec p 200) as [->|Np]; [vm_compute; reflexivity|]. apply filter_none. intros e He. unfold of_user. destruct (is_user e) eqn:R; [|reflexivity].
    assert (D : pointer e = 200) by (let v := eval vm_compute in ex_window in change ex_window with v in He; cbn [In] in He; repeat (destruct He as [<-|He]; [cbn in R |- *; (discriminate || reflexivity)|]); destruct He).
    apply Z.eqb_neq. lia. }
  split; [|split; [|split; [|split]]].
  - intros [|[|[|i]]] [|[|[|j]]] oi oj H Hi Hj; cbn in Hi, Hj; try lia; try (destruct i; discriminate); try (destruct j; discriminate); injection Hi as <-; injection Hj as <-; (split; intros; (reflexivity || discriminate)).
  - let v := eval vm_compute in ex_window in change ex_window with v. repeat (apply Forall_cons || apply Forall_nil); (split; [|split; [|split]]); cbn; try discriminate; try lia; intros _;
      solve [exists (mkObject 100 0 0 [77]); cbn; auto | exists (mkObject 100 101 1 [97]); cbn; auto | exists (mkObject 200 0 2 [117]); cbn; auto].
  - split; [|split; [|split]].
    + intros p d. rewrite Rf. destruct ((p =? 100) && (d =? 0)); [cbn; repeat split; lia|]. destruct ((p =? 100) && (d =? 1)); cbn; repeat split; lia.
    + intros w a. rewrite Wf. destruct ((w =? 0) && a); [cbn; repeat split; lia|]. destruct ((w =? 1) && negb a); cbn; repeat split; lia.
    + intros e He H. let v := eval vm_compute in ex_window in change ex_window with v in He. cbn [In] in He. repeat (destruct He as [<-|He]; [cbn in H |- *; (discriminate || lia)|]). destruct He.
    + intros e1 e2 H1 H2 U1 U2 _. let v := eval vm_compute in ex_window in change ex_window with v in H1, H2. cbn [In] in H1, H2.
      assert (A1 : event_type e1 = 5) by (repeat (destruct H1 as [<-|H1]; [cbn in U1 |- *; (discriminate || reflexivity)|]); destruct H1).
      assert (A2 : event_type e2 = 5) by (repeat (destruct H2 as [<-|H2]; [cbn in U2 |- *; (discriminate || reflexivity)|]); destruct H2). rewrite A1, A2. reflexivity.
  - unfold ex_records. repeat (apply Forall_cons || apply Forall_nil); unfold in_range, time_ok; cbn; repeat split; try lia; try discriminate; intros [H|H]; discriminate.
  - split; [|split].
    + intros p d. rewrite Rf. destruct ((p =? 100) && (d =? 0)); [cbn; lia|]. destruct ((p =? 100) && (d =? 1)); cbn; lia.
    + intros w a. rewrite Wf. destruct ((w =? 0) && a); [cbn; lia|]. destruct ((w =? 1) && negb a); cbn; lia.
    + intros p. rewrite Uf. destruct (p =? 200); cbn; lia.
Qed.

(** *** The full statement is false in these respects *)

(** A message without a tag, such as the resignation of a federate, is traced with the time NEVER (core/tracepoint.c:165-274):
    the conversion of the trace overflows (trace_to_csv.c:121). *)
Theorem C76_no_tag_refuted : forall table start from until l1 l2 k src phys, 0 < start ->
  to_csv table start from until (l1 ++ mkEntry k 0 src (-1) NEVER 0 phys 0 0 :: l2) = Undefined.
Proof.
  intros table start from until l1 l2 k src phys Hs. unfold to_csv. rewrite convert_app. destruct (convert table start from until conv0 l1) as [c|]; [|reflexivity]. cbn [convert]. unfold convert_one.
  destruct (get_object_description _ _) as (a, b). destruct (get_trigger_name _ _) as (a', b'). cbn zeta. cbn [logical_time]. replace (fits64 (NEVER - start)) with false; [reflexivity|]. symmetry. unfold fits64, NEVER, LLONG_MIN. apply andb_false_iff. left. apply Z.leb_gt. lia.
Qed.
Print Assumptions C76_no_tag_refuted.

(** The 33rd worker writes outside of an array (trace_to_csv.c:219-240): the check forgets that there is one entry per type of
    event, and the array for one worker has 64 entries only. *)
Theorem C76_workers_refuted : exists l, (forall e, In e l -> event_type e = 6 /\ src_id e = 32) /\ to_csv ex_table 1000 NEVER FOREVER l = Undefined.
Proof. exists [rec 6 0 32 (-1) 1000 0 0]. split; [intros e [<-|[]]; split; reflexivity|reflexivity]. Qed.
Print Assumptions C76_workers_refuted.

(** A call that schedules a trigger that is not registered is counted for the first object of the table, which is not a trigger
    (trace_util.c:175: the index should be -1, as trace_util.h documents and trace_to_csv.c:182 expects). *)
Theorem C76_unregistered_refuted : exists l rs s, to_csv ex_table 1000 NEVER FOREVER l = Ok (rs, s) /\
  (forall e, In e l -> is_reaction e = true -> registered ex_table e) /\ In (LReaction (Named [77]) 0 1 4 4 4 4) (expected_summary ex_table 1000 l) /\
  ~ In (LReaction (Named [77]) 0 1 4 4 4 4) s /\ In (LReaction NoTrigger 0 1 4 4 4 4) s /\ In (LSchedule NoTrigger 3) s.
Proof.
  exists [rec 0 100 0 0 1011 0 0; rec 1 100 0 0 1015 0 0; rec 3 0 0 0 1016 555 0]. eexists. eexists. split; [vm_compute; reflexivity|]. split.
  - intros e He Hr. assert (P : pointer e = 100 /\ microstep e = 0 /\ (event_type e = 0 \/ event_type e = 1)) by (cbn [In] in He; repeat (destruct He as [<-|He]; [cbn in Hr |- *; (discriminate || auto)|]); destruct He).
    destruct P as (P1 & P2 & P3). split; [intros _; exists (mkObject 100 0 0 [77]); rewrite P1; cbn; auto|]. split; [unfold schedule_called; lia|]. split; [unfold is_user, user_event, user_value; destruct P3 as [-> | ->]; discriminate|lia].
  - split; [vm_compute; tauto|]. split; [|split; cbn; tauto]. cbn [In]. intros H. repeat (destruct H as [H|H]; [discriminate|]). exact H.
Qed.
Print Assumptions C76_unregistered_refuted.

(** An execution that takes no measurable time is forgotten when the next one takes longer: the smallest time is wrong
    (trace_to_csv.c:176, zero stands for "none"). *)
Theorem C76_minimum_refuted : exists l rs s, to_csv ex_table 1000 NEVER FOREVER l = Ok (rs, s) /\ Forall (registered ex_table) l /\
  durations None (filter (of_reaction 100 0) l) = [0; 5] /\ In (LReaction (Named [77]) 0 2 5 2 5 5) s /\ In (LReaction (Named [77]) 0 2 5 2 5 0) (expected_summary ex_table 1000 l).
Proof.
  exists [rec 0 100 0 0 1011 0 0; rec 1 100 0 0 1011 0 0; rec 0 100 0 0 1020 0 0; rec 1 100 0 0 1025 0 0]. eexists. eexists. split; [vm_compute; reflexivity|]. split.
  - repeat (apply Forall_cons || apply Forall_nil); (split; [|split; [|split]]); cbn; try discriminate; try lia; intros _; exists (mkObject 100 0 0 [77]); cbn; auto.
  - split; [reflexivity|]. split; [cbn; tauto|vm_compute; tauto].
Qed.
Print Assumptions C76_minimum_refuted.

(** The largest of negative values is reported as 0 (trace_to_csv.c:205, the maximum starts with 0). *)
Theorem C76_negative_refuted : exists l rs s, to_csv ex_table 1000 NEVER FOREVER l = Ok (rs, s) /\ Forall (registered ex_table) l /\
  In (LUser (Named [117]) 2 (Some (-7, -3, 0, -5))) s /\ largest (map extra_delay l) = -2.
Proof.
  exists [rec 5 200 (-1) (-1) 1013 0 (-5); rec 5 200 (-1) (-1) 1013 0 (-2)]. eexists. eexists. split; [vm_compute; reflexivity|]. split.
  - repeat (apply Forall_cons || apply Forall_nil); (split; [|split; [|split]]); cbn; try discriminate; try lia; intros _; exists (mkObject 200 0 2 [117]); cbn; auto.
  - split; [cbn; tauto|reflexivity].
Qed.
Print Assumptions C76_negative_refuted.

(** The waits of a worker that is waiting when the trace ends are not reported at all (trace_to_csv.c:353: the last event decides). *)
Theorem C76_waiting_refuted : exists l rs s, to_csv ex_table 1000 NEVER FOREVER l = Ok (rs, s) /\
  In (LWait 1 false 1 20 20 20 20) (expected_summary ex_table 1000 l) /\ forall x, In x s -> match x with LWait _ _ _ _ _ _ _ => False | _ => True end.
Proof.
  exists [rec 6 0 1 (-1) 1000 0 0; rec 7 0 1 (-1) 1020 0 0; rec 6 0 1 (-1) 1030 0 0]. eexists. eexists. split; [vm_compute; reflexivity|]. split; [vm_compute; tauto|].
  intros x Hx. cbn [In] in Hx. repeat (destruct Hx as [<-|Hx]; [exact Logic.I|]). destruct Hx.
Qed.
Print Assumptions C76_waiting_refuted.
