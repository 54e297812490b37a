(** Traces shown in the viewer of the Chrome browser: property C97. *)
From Coq Require Import String.
From Verif Require Import Base CText Logging Net TraceFile TraceCsv Chrome ChromeSpec ChromeProofs.
Open Scope Z_scope.
Local Open Scope list_scope.

(** A small trace: a reactor "main" with a timer "t"; reaction 1 runs on worker 2, waits, and a value is recorded. *)
Definition small_table : list object :=
  [mkObject 100 0 0 (lit "main"); mkObject 100 200 1 (lit "main.t"); mkObject 300 0 2 (lit "level")].
Definition small_trace : list entry :=
  [mkEntry 8 0 (-1) (-1) 5000 0 5100 0 0; mkEntry 9 0 (-1) (-1) 5000 0 6200 0 0; mkEntry 3 100 0 0 5000 0 6300 200 10000;
   mkEntry 0 100 2 1 6000 0 8000 0 0; mkEntry 5 300 (-1) (-1) 6000 0 8500 0 (-7); mkEntry 1 100 2 1 6000 0 9500 0 0; mkEntry 23 0 1 1 6000 0 9600 0 0].
Lemma small_sound : Forall (sound 5000) small_trace.
Proof.
  unfold small_trace, sound, typed. repeat (apply Forall_cons; [cbn [event_type src_id dst_id logical_time physical_time extra_delay microstep]; repeat split; try reflexivity; lia|]). apply Forall_nil.
Qed.

(** If the names have no quotes, backslashes or control characters, what is written is a JSON text.
    Missing for the full property: other names, see [C97_names_refuted]. *)
Theorem C97_json_partial table top start only l t : names_plain table -> plain top -> Z.of_nat (List.length table) < 2 ^ 31 -> Forall typed l ->
  write_json table top start only l = Ok t -> is_json t = true.
Proof. apply json. Qed.
Example C97_json_ex : names_plain small_table /\ plain (lit "main") /\ Forall typed small_trace
  /\ (exists t, write_json small_table (lit "main") 5000 false small_trace = Ok t /\ is_json t = true)
  /\ is_json (lit "{""a"": [1, -20, {}], ""b"": ""x""}") = true /\ is_json (lit "[1,]") = false /\ is_json (lit "{""a"" 1}") = false /\ is_json (lit "[01]") = false /\ is_json (lit "[1") = false.
Proof.
  split; [repeat (apply Forall_cons; [now apply plain_lit_ok|]); apply Forall_nil|]. split; [now apply plain_lit_ok|].
  split; [eapply Forall_impl; [|exact small_sound]; intros e [A _]; exact A|].
  split; [eexists; split; [vm_compute; reflexivity|vm_compute; reflexivity]|]. repeat split.
Qed.

(** A sound trace is converted without undefined behaviour, whatever the table of objects and the names. *)
Theorem C97_defined table top start only l : Forall (sound start) l -> exists t, write_json table top start only l = Ok t.
Proof. intros F. destruct (spans table start only l F) as (js & H & _). unfold write_json. rewrite H. eauto. Qed.
Example C97_defined_ex : Forall (sound 5000) small_trace.
Proof. exact small_sound. Qed.

(** On the line of every worker the viewer shows exactly the beginnings and ends of the trace, in their order and at their
    physical times.  Missing for the full property: traces with entries before the start, see [C97_skipped_refuted]. *)
Theorem C97_spans_partial table start only l js w : Forall (sound start) l -> convert_all table start only l = Ok js ->
  flat_map (event_span w) js = flat_map (entry_span start w) l.
Proof. intros F H. destruct (spans table start only l F) as (js' & H' & A). assert (js = js') by congruence. subst js'. apply A. Qed.
Example C97_spans_ex : flat_map (entry_span 5000 2) small_trace = [(true, 3); (false, 4)] /\ flat_map (entry_span 5000 (-1)) small_trace = [(true, 0); (false, 1)]
  /\ exists js, convert_all small_table 5000 false small_trace = Ok js /\ List.length js = 7%nat.
Proof. split; [reflexivity|]. split; [reflexivity|]. eexists. split; vm_compute; reflexivity. Qed.

(** Every call to schedule is shown as one instant with the name of its trigger, at the logical time for which it asks (up to
    two microseconds), or, with the option -p, at the physical time of the call. *)
Theorem C97_schedule table start only e : sound start e -> event_type e = 3 ->
  exists j, convert table start only e = Ok [j] /\ j_ph j = lit "i"
    /\ j_name j = match trigger_label table (trigger e) with Some t => t | None => lit "NONE" end
    /\ if only then j_ts j = (physical_time e - start) / 1000
       else Z.abs (1000 * j_ts j - (logical_time e - start + extra_delay e)) < 2000.
Proof.
  intros F K. pose proof (convert_sound table start only e F ltac:(lia)) as Q. cbv zeta in Q. rewrite K in Q. cbn [Z.eqb andb orb Pos.eqb] in Q.
  eexists. split; [exact Q|]. split; [reflexivity|]. split; [reflexivity|]. cbn [j_ts]. destruct only; [reflexivity|].
  pose proof (Z.div_mod (logical_time e - start) 1000 ltac:(lia)). pose proof (Z.mod_pos_bound (logical_time e - start) 1000 ltac:(lia)).
  pose proof (Z.quot_rem' (extra_delay e) 1000). pose proof (Z.rem_bound_abs (extra_delay e) 1000 ltac:(lia)). lia.
Qed.
Example C97_schedule_ex : let e := mkEntry 3 100 0 0 5000 0 6300 200 10000 in In e small_trace /\ event_type e = 3
  /\ exists a, convert small_table 5000 false e = Ok [mkEvent (lit "main.t") (lit "Schedule called") (lit "i") 1 1 10 a].
Proof. split; [cbn; tauto|]. split; [reflexivity|]. eexists. vm_compute. reflexivity. Qed.

(** User events and values are shown with their names, values with the recorded value, in the process for user events. *)
Theorem C97_user table start only e : sound start e -> event_type e = 4 \/ event_type e = 5 ->
  exists j, convert table start only e = Ok [j] /\ j_pid j = PID_FOR_USER_EVENT
    /\ j_name j = match reactor_label table (pointer e) with Some t => t | None => lit "NO REACTOR" end
    /\ j_ts j = ((if only then physical_time e else logical_time e) - start) / 1000
    /\ (event_type e = 5 -> j_ph j = lit "C" /\ j_args j = lit "{""value"": " ++ sdec (extra_delay e) ++ lit "}").
Proof.
  intros F K. pose proof (convert_sound table start only e F ltac:(lia)) as Q. cbv zeta in Q.
  destruct K as [K|K]; rewrite K in Q; cbn [Z.eqb andb orb Pos.eqb] in Q; (eexists; split; [exact Q|]); (split; [reflexivity|]); (split; [reflexivity|]); (split; [destruct only; reflexivity|]);
    [intros X; rewrite K in X; discriminate X|intros _; split; reflexivity].
Qed.
Example C97_user_ex : let e := mkEntry 5 300 (-1) (-1) 6000 0 8500 0 (-7) in In e small_trace /\ event_type e = 5
  /\ convert small_table 5000 false e = Ok [mkEvent (lit "level") (lit "User-defined valued event") (lit "C") 2 1000000 1 (lit "{""value"": -7}")].
Proof. split; [cbn; tauto|]. split; [reflexivity|]. vm_compute. reflexivity. Qed.

(** The process and the line of every span have a name.
    Missing for the full property: negative numbers of workers and deadlines, see [C97_advancing_refuted], [C97_deadline_refuted]. *)
Theorem C97_named_partial table top start only l js j : Forall (sound start) l -> convert_all table start only l = Ok js -> In j js ->
  0 <= j_tid j -> bound j = true ->
  let ms := metadata table top (max_thread_id start l) (max_reaction_number start only l) in
  named ms (j_pid j) (Some (j_tid j)) /\ named ms (j_pid j) None.
Proof. apply rows_named. Qed.
(** Every start of a reaction is also shown at its logical time, on the line of the reaction in the process of its reactor, and that
    line has a name. *)
Theorem C97_reactions table top start l e : Forall (sound start) l -> In e l -> event_type e = 0 -> 0 <= dst_id e -> table <> [] ->
  exists b i, convert table start false e = Ok [b; i] /\ bound b = true /\ j_tid i = 1024 + dst_id e /\ j_ts i = (logical_time e - start) / 1000
    /\ (forall k o, nth_error table k = Some o -> o_pointer o = pointer e -> (forall k' o', (k' < k)%nat -> nth_error table k' = Some o' -> o_pointer o' <> pointer e) ->
        j_pid i = Z.of_nat k + 1 /\
        (o_type o = trace_reactor -> named (metadata table top (max_thread_id start l) (max_reaction_number start false l)) (j_pid i) None))
    /\ named (metadata table top (max_thread_id start l) (max_reaction_number start false l)) (j_pid i) (Some (j_tid i)).
Proof.
  intros F I K D N. destruct (reaction_named table top start l e F I K D N) as (b & i & A & B & C & G & T). cbv zeta in C.
  exists b, i. split; [exact A|]. split; [exact B|]. split; [exact G|]. split; [exact T|]. split; [|exact C].
  intros k o H1 H2 H3.
  assert (P : j_pid i = Z.of_nat k + 1).
  { pose proof (proj1 (Forall_forall _ _) F e I) as S1. pose proof (convert_sound table start false e S1 ltac:(lia)) as Q. cbv zeta in Q. rewrite K in Q. cbn [Z.eqb andb orb negb] in Q.
    rewrite A in Q. match type of Q with Ok [_; i] = Ok [_; ?y] => assert (Qi : i = y) by congruence end. rewrite Qi. cbn [j_pid].
    assert (X : lookup (fun o => o_pointer o =? pointer e) 0 table = Some (o, 0 + Z.of_nat k)).
    { clear - H1 H2 H3. generalize 0. revert k H1 H3. induction table as [|x table IH]; intros k H1 H3 z; [now destruct k|]. cbn [lookup]. destruct k as [|k].
      - cbn in H1. injection H1 as ->. rewrite H2, Z.eqb_refl. f_equal. f_equal. lia.
      - destruct (Z.eqb_spec (o_pointer x) (pointer e)) as [E1|_]; [exfalso; apply (H3 O x); [lia|reflexivity|exact E1]|].
        cbn in H1. rewrite (IH k H1). { f_equal. f_equal. lia. } intros k' o' L Q. apply (H3 (S k') o'); [lia|exact Q]. }
    unfold get_object_description. rewrite X. cbn [snd]. lia. }
  split; [exact P|]. intros Tr. rewrite P. destruct (objects_named table table 0 k o H1 Tr) as (m & M1 & M2). exists m. split; [|exact M2].
  unfold metadata. right. do 2 (apply in_or_app; right). apply in_or_app. now left.
Qed.
Example C97_named_ex : let e := mkEntry 0 100 2 1 6000 0 8000 0 0 in
  let ms := metadata small_table (lit "main") (max_thread_id 5000 small_trace) (max_reaction_number 5000 false small_trace) in
  In e small_trace /\ event_type e = 0 /\ In (mkMeta 0 (Some 2) (lit "Worker 2")) ms /\ In (mkMeta 1 (Some 1025) (lit "Reaction 1")) ms
  /\ nth_error small_table 0 = Some (mkObject 100 0 0 (lit "main")).
Proof. split; [cbn; tauto|]. split; [reflexivity|]. split; [vm_compute; tauto|]. split; [vm_compute; tauto|reflexivity]. Qed.

(** Names are written as they are: with a quote in a name, the text is not JSON. *)
Theorem C97_names_refuted : exists table l t, Forall (sound 5000) l /\ write_json table (lit "main") 5000 false l = Ok t /\ is_json t = false.
Proof.
  exists [mkObject 100 0 0 [97; 34; 98]], small_trace. eexists. split; [exact small_sound|]. split; [vm_compute; reflexivity|]. vm_compute. reflexivity.
Qed.
(** Numbers of reactions are cut to three digits: reaction 1000 is shown as reaction 100. *)
Theorem C97_number_refuted table start e : sound start e -> event_type e = 0 -> dst_id e = 1000 ->
  convert table start true e = convert table start true (mkEntry (event_type e) (pointer e) (src_id e) 100 (logical_time e) (microstep e) (physical_time e) (trigger e) (extra_delay e)).
Proof. intros F K D. unfold convert. cbn [event_type pointer src_id dst_id logical_time microstep physical_time trigger extra_delay]. rewrite K, D. reflexivity. Qed.
Example C97_number_ex : sound 5000 (mkEntry 0 100 2 1000 6000 0 8000 0 0).
Proof. unfold sound, typed. cbn [event_type src_id dst_id logical_time physical_time extra_delay microstep]. repeat split; try reflexivity; lia. Qed.
(** Advancing time begins as "ADVANCE TIME" and ends as "NO REACTOR", and its line (number -1) never has a name. *)
Theorem C97_advancing_refuted table top start only e threads reactions : sound start e -> reactor_label table (pointer e) = None -> src_id e = -1 ->
  (event_type e = 8 -> exists j, convert table start only e = Ok [j] /\ j_name j = lit "ADVANCE TIME" /\ j_tid j = -1) /\
  (event_type e = 9 -> exists j, convert table start only e = Ok [j] /\ j_name j = lit "NO REACTOR" /\ j_tid j = -1) /\
  ~ named (metadata table top threads reactions) 0 (Some (-1)).
Proof.
  intros F N W. split; [|split].
  - intros K. pose proof (convert_sound table start only e F ltac:(lia)) as Q. cbv zeta in Q. rewrite K, N in Q. cbn [Z.eqb andb orb Pos.eqb] in Q. eexists. split; [exact Q|]. split; [reflexivity|exact W].
  - intros K. pose proof (convert_sound table start only e F ltac:(lia)) as Q. cbv zeta in Q. rewrite K, N in Q. cbn [Z.eqb andb orb Pos.eqb] in Q. eexists. split; [exact Q|]. split; [reflexivity|exact W].
  - intros (m & M & _ & T). apply metadata_rows in M. rewrite T in M. lia.
Qed.
Example C97_advancing_ex : let e := mkEntry 9 0 (-1) (-1) 5000 0 6200 0 0 in In e small_trace /\ reactor_label small_table (pointer e) = None /\ src_id e = -1.
Proof. split; [cbn; tauto|]. split; reflexivity. Qed.
(** Missed deadlines are put in a process that never has a name (if there are fewer than two million objects). *)
Theorem C97_deadline_refuted table top start only e threads reactions tid : sound start e -> event_type e = 2 -> Z.of_nat (List.length table) < 1999999 ->
  exists j, convert table start only e = Ok [j] /\ ~ named (metadata table top threads reactions ++ [last_meta top]) (j_pid j) tid.
Proof.
  intros F K L. pose proof (convert_sound table start only e F ltac:(lia)) as Q. cbv zeta in Q. rewrite K in Q. cbn [Z.eqb andb orb Pos.eqb] in Q. eexists. split; [exact Q|]. cbn [j_pid].
  intros (m & M & P & _). apply in_app_or in M. destruct M as [M|[<-|[]]]; [|discriminate P]. apply metadata_rows in M. rewrite P in M. unfold PID_FOR_USER_EVENT, PID_FOR_UNKNOWN_EVENT in M. lia.
Qed.
Example C97_deadline_ex : sound 5000 (mkEntry 2 100 2 1 6000 0 8000 0 0).
Proof. unfold sound, typed. cbn [event_type src_id dst_id logical_time physical_time extra_delay microstep]. repeat split; try reflexivity; lia. Qed.
(** Entries from before the start are left out, so that ends are shown whose beginnings are not. *)
Theorem C97_skipped_refuted : exists l js, Forall typed l /\ convert_all small_table 5000 false l = Ok js
  /\ flat_map (entry_span 5000 2) l = [(true, -1); (false, 3)] /\ flat_map (event_span 2) js = [(false, 3)].
Proof.
  exists [mkEntry 6 0 2 0 4000 0 4000 0 0; mkEntry 7 0 2 0 5000 0 8000 0 0]. eexists.
  split; [repeat (apply Forall_cons; [unfold typed; cbn [event_type src_id dst_id logical_time physical_time extra_delay microstep]; repeat split; try reflexivity; lia|]); apply Forall_nil|].
  split; [vm_compute; reflexivity|]. split; vm_compute; reflexivity.
Qed.

Print Assumptions C97_json_partial.
Print Assumptions C97_defined.
Print Assumptions C97_spans_partial.
Print Assumptions C97_schedule.
Print Assumptions C97_user.
Print Assumptions C97_named_partial.
Print Assumptions C97_reactions.
Print Assumptions C97_names_refuted.
Print Assumptions C97_number_refuted.
Print Assumptions C97_advancing_refuted.
Print Assumptions C97_deadline_refuted.
Print Assumptions C97_skipped_refuted.
