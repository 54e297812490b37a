(** C35: after lf_request_stop each environment's stop tag is strictly later than its
    current tag at that moment, so that it will execute its shutdown reactions.

    This is proved for the environment of the reaction that calls lf_request_stop, with
    any number of environments, and refuted for the other environments and for calls from
    outside of reactions. *)
From Verif Require Import Base Tag TagSpec TagProofs RequestStop RequestStopSpec RequestStopProofs.
From Verif Require TagBarrierProofs.

(** [StopSet i c s]: lf_request_stop leaves environment [i], whose current tag is [c], with
    the stop tag [s].  If [s] is not later than [c], then because a timeout was reached and
    the shutdown reactions are already triggered at [c]. *)
Theorem C35_later_partial n enclaves keepalive i top start stops s es c t :
  0 <= top -> top + 2 < two32 -> start_ok top start stops -> (i < n)%nat ->
  exec n enclaves keepalive (Some i) top (init start stops) (init_events n start stops) s es ->
  In (StopSet i c t) es -> tag_lt c t \/ In (Shutdown i c) es.
Proof. intros T0 T1 O L X. apply (g_set _ _ _ _ _ (exec_inv n enclaves keepalive (Some i) top T1 T0 start stops s es O X)); auto. Qed.
Print Assumptions C35_later_partial.

(** This environment triggers its shutdown reactions, exactly once, before its workers end,
    and at its last tag. *)
Theorem C35_shutdown_partial n enclaves keepalive i top start stops s es :
  0 <= top -> top + 2 < two32 -> start_ok top start stops -> (i < n)%nat ->
  exec n enclaves keepalive (Some i) top (init start stops) (init_events n start stops) s es ->
  In (Ends i) es -> shutdowns i es = [cur (envs s i)].
Proof.
  intros T0 T1 O L X E. pose proof (exec_inv n enclaves keepalive (Some i) top T1 T0 start stops s es O X) as I.
  destruct (g_prot _ _ _ _ _ I i L (or_introl eq_refl)) as [(K & _)|K]; [|exact K]. destruct (g_ends _ _ _ _ _ I i L (or_introl eq_refl) E K).
Qed.
Print Assumptions C35_shutdown_partial.

(** As long as no stop is requested, every environment does. *)
Theorem C35_unrequested n enclaves keepalive inside i top start stops s es :
  0 <= top -> top + 2 < two32 -> start_ok top start stops -> (i < n)%nat ->
  exec n enclaves keepalive inside top (init start stops) (init_events n start stops) s es ->
  ph s = NotYet -> In (Ends i) es -> shutdowns i es = [cur (envs s i)].
Proof.
  intros T0 T1 O L X P E. pose proof (exec_inv n enclaves keepalive inside top T1 T0 start stops s es O X) as I.
  destruct (g_prot _ _ _ _ _ I i L (or_intror P)) as [(K & _)|K]; [|exact K]. destruct (g_ends _ _ _ _ _ I i L (or_intror P) E K).
Qed.
Print Assumptions C35_unrequested.

(** No environment triggers its shutdown reactions twice. *)
Theorem C35_once n enclaves keepalive inside i top start stops s es :
  0 <= top -> top + 2 < two32 -> start_ok top start stops -> (i < n)%nat ->
  exec n enclaves keepalive inside top (init start stops) (init_events n start stops) s es ->
  (length (shutdowns i es) <= 1)%nat.
Proof.
  intros T0 T1 O L X. pose proof (exec_inv n enclaves keepalive inside top T1 T0 start stops s es O X) as I.
  destruct (g_once _ _ _ _ _ I i L) as [->|(t & -> & _)]; cbn; lia.
Qed.
Print Assumptions C35_once.

(** The first environment is not left waiting for an event after the request. *)
Theorem C35_woken_partial n enclaves keepalive inside top start stops s es :
  0 <= top -> top + 2 < two32 -> start_ok top start stops -> (0 < n)%nat ->
  exec n enclaves keepalive inside top (init start stops) (init_events n start stops) s es ->
  ph s = Requested -> asleep (envs s 0%nat) = false.
Proof.
  intros T0 T1 O L X P. pose proof (exec_inv n enclaves keepalive inside top T1 T0 start stops s es O X) as I.
  pose proof (g_fin _ _ _ _ _ I) as F. rewrite P in F. specialize (F L). destruct (asleep (envs s 0%nat)) eqn:A; [|reflexivity].
  rewrite (g_sleep _ _ _ _ _ I A) in F. lia.
Qed.
Print Assumptions C35_woken_partial.

(** ** Executions *)
Definition allowedb (top : Z) (s : state) (o : op) : bool :=
  match o with
  | Insert i t => (LLONG_MIN <=? ttime t) && (ttime t <=? LLONG_MAX) && (0 <=? tmicro t) && (tmicro t <=? UINT_MAX) && (tag_compare (cur (envs s i)) t <? 0) && (tmicro t <? top)
  | _ => true
  end.
Lemma allowedb_ok top s o : allowedb top s o = true -> allowed top s o.
Proof.
  destruct o; cbn; auto. rewrite !andb_true_iff, !Z.leb_le, TagBarrierProofs.cmp_lt0, Z.ltb_lt. unfold tag_ok, in_int64, in_uint32. tauto.
Qed.
Fixpoint run n enc ka inside top (s : state) (es : list event) (l : list op) : option (state * list event) :=
  match l with
  | [] => Some (s, es)
  | o :: l => if allowedb top s o then match step n enc ka inside s o with Some (s', es') => run n enc ka inside top s' (es ++ es') l | None => None end else None
  end.
Lemma run_exec n enc ka inside top s0 es0 l : forall s es s' es', exec n enc ka inside top s0 es0 s es -> run n enc ka inside top s es l = Some (s', es') -> exec n enc ka inside top s0 es0 s' es'.
Proof.
  induction l as [|o l IH]; cbn; intros s es s' es' X H; [injection H as <- <-; exact X|].
  destruct (allowedb top s o) eqn:A; [|discriminate]. destruct (step n enc ka inside s o) as [[s1 es1]|] eqn:E; [|discriminate].
  eapply IH; [|exact H]. eapply exec_step; [exact X|apply allowedb_ok; exact A|exact E].
Qed.

Definition t0 : tag := mkTag 100 0.
Definition forever (i : nat) : tag := FOREVER_TAG.
Lemma t0_ok top : 0 < top -> start_ok top t0 forever.
Proof.
  intros H. split; [vm_compute; repeat split; discriminate|exact H|now vm_compute|].
  intros i. split; [vm_compute; repeat split; discriminate|now right].
Qed.

(** One environment: the reaction at the start tag schedules an event and requests a stop. *)
Definition ops1 : list op := [Insert 0 (mkTag 200 0); Request; Request; Request; Request; Request; Advance 0 true; Advance 0 true; Advance 0 true].
Example C35_ex : exists s es,
  exec 1 false false (Some 0%nat) 1000 (init t0 forever) (init_events 1 t0 forever) s es /\
  es = [StopSet 0 t0 (mkTag 100 1); Shutdown 0 (mkTag 100 1); Ends 0].
Proof.
  assert (match run 1 false false (Some 0%nat) 1000 (init t0 forever) (init_events 1 t0 forever) ops1 with Some (_, es) => es = [StopSet 0 t0 (mkTag 100 1); Shutdown 0 (mkTag 100 1); Ends 0] | None => False end) as H by now vm_compute.
  destruct (run 1 false false (Some 0%nat) 1000 (init t0 forever) (init_events 1 t0 forever) ops1) as [[s es]|] eqn:E; [|easy].
  exists s, es. split; [|exact H]. eapply run_exec; [apply exec_start|exact E].
Qed.

(** The environment of another enclave advances after its current tag has been read: its
    stop tag is in its past, and its workers end without shutdown reactions. *)
Definition ops2 : list op := [Insert 1 (mkTag 300 0); Request; Request; Request; Advance 1 true; Request; Request; Request; Request; Advance 1 true; Advance 1 true].
Theorem C35_enclave_refuted : exists s es c t,
  start_ok 1000 t0 forever /\
  exec 2 true true (Some 0%nat) 1000 (init t0 forever) (init_events 2 t0 forever) s es /\
  In (StopSet 1 c t) es /\ tag_lt t c /\ In (Ends 1) es /\ shutdowns 1 es = [].
Proof.
  assert (match run 2 true true (Some 0%nat) 1000 (init t0 forever) (init_events 2 t0 forever) ops2 with Some (_, es) => es = [StopSet 0 t0 (mkTag 100 1); StopSet 1 (mkTag 300 0) (mkTag 100 1); Ends 1] | None => False end) as H by now vm_compute.
  destruct (run 2 true true (Some 0%nat) 1000 (init t0 forever) (init_events 2 t0 forever) ops2) as [[s es]|] eqn:E; [|easy].
  exists s, es, (mkTag 300 0), (mkTag 100 1). split; [apply t0_ok; lia|]. split; [eapply run_exec; [apply exec_start|exact E]|]. rewrite H. split; [right; now left|]. split; [left; cbn; lia|]. split; [do 2 right; now left|]. reflexivity.
Qed.
Print Assumptions C35_enclave_refuted.

(** The same happens to the only environment if the stop is requested by a thread that
    does not execute a reaction. *)
Definition ops3 : list op := [Insert 0 (mkTag 300 0); Request; Request; Advance 0 true; Request; Request; Request; Advance 0 true; Advance 0 true].
Theorem C35_thread_refuted : exists s es c t,
  start_ok 1000 t0 forever /\
  exec 1 false true None 1000 (init t0 forever) (init_events 1 t0 forever) s es /\
  In (StopSet 0 c t) es /\ tag_lt t c /\ In (Ends 0) es /\ shutdowns 0 es = [].
Proof.
  assert (match run 1 false true None 1000 (init t0 forever) (init_events 1 t0 forever) ops3 with Some (_, es) => es = [StopSet 0 (mkTag 300 0) (mkTag 100 1); Ends 0] | None => False end) as H by now vm_compute.
  destruct (run 1 false true None 1000 (init t0 forever) (init_events 1 t0 forever) ops3) as [[s es]|] eqn:E; [|easy].
  exists s, es, (mkTag 300 0), (mkTag 100 1). split; [apply t0_ok; lia|]. split; [eapply run_exec; [apply exec_start|exact E]|]. rewrite H. split; [now left|]. split; [left; cbn; lia|]. split; [right; now left|]. reflexivity.
Qed.
Print Assumptions C35_thread_refuted.

(** At the last microstep of a time the next microstep wraps around. *)
Definition ops4 : list op := [Insert 0 (mkTag 300 UINT_MAX); Advance 0 true; Request; Request; Request; Request; Request; Advance 0 true; Advance 0 true].
Theorem C35_microstep_refuted : exists s es c t,
  start_ok two32 t0 forever /\
  exec 1 false true (Some 0%nat) two32 (init t0 forever) (init_events 1 t0 forever) s es /\
  In (StopSet 0 c t) es /\ tag_lt t c /\ In (Ends 0) es /\ shutdowns 0 es = [].
Proof.
  assert (match run 1 false true (Some 0%nat) two32 (init t0 forever) (init_events 1 t0 forever) ops4 with Some (_, es) => es = [StopSet 0 (mkTag 300 UINT_MAX) (mkTag 300 0); Ends 0] | None => False end) as H by now vm_compute.
  destruct (run 1 false true (Some 0%nat) two32 (init t0 forever) (init_events 1 t0 forever) ops4) as [[s es]|] eqn:E; [|easy].
  exists s, es, (mkTag 300 UINT_MAX), (mkTag 300 0). split; [apply t0_ok; now vm_compute|]. split; [eapply run_exec; [apply exec_start|exact E]|]. rewrite H. split; [now left|]. split; [right; now vm_compute|]. split; [right; now left|]. reflexivity.
Qed.
Print Assumptions C35_microstep_refuted.

(** Line 526 signals the first environment only: another enclave that waits for an event
    goes on waiting although its stop tag is set, and no step of its own is possible. *)
Definition ops5 : list op := [Advance 1 true; Request; Request; Request; Request; Request; Request; Request].
Theorem C35_woken_refuted : exists s es,
  start_ok 1000 t0 forever /\
  exec 2 true true (Some 0%nat) 1000 (init t0 forever) (init_events 2 t0 forever) s es /\
  ph s = Requested /\ stop (envs s 1%nat) = mkTag 100 1 /\ asleep (envs s 1%nat) = true /\
  forall granted, step 2 true true (Some 0%nat) s (Advance 1 granted) = None.
Proof.
  assert (match run 2 true true (Some 0%nat) 1000 (init t0 forever) (init_events 2 t0 forever) ops5 with
          | Some (s, _) => ph s = Requested /\ stop (envs s 1%nat) = mkTag 100 1 /\ asleep (envs s 1%nat) = true | None => False end) as H by now vm_compute.
  destruct (run 2 true true (Some 0%nat) 1000 (init t0 forever) (init_events 2 t0 forever) ops5) as [[s es]|] eqn:E; [|easy]. destruct H as (H1 & H2 & H3).
  exists s, es. split; [apply t0_ok; lia|]. split; [eapply run_exec; [apply exec_start|exact E]|]. do 3 (split; [assumption|]).
  intros g. cbn [step]. rewrite H3. cbn [negb]. now rewrite andb_false_r.
Qed.
Print Assumptions C35_woken_refuted.
