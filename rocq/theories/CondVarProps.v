(** C72: condition variables (RP2040) lose no notification and protect the mutex. *)
From Verif Require Import Base CondVar CondVarSpec CondVarProofs.

(** As long as timed waits are not used and no core waits with the mutex locked twice,
    everything that can be observed is the behaviour of a monitor with spurious wake-ups.
    And a core that the monitor has woken is not held up by anything but the mutex. *)
Theorem C72_monitor_partial : forall l s,
  flat_run state0 l -> run state0 l = Some s ->
  exists m, mrun monitor0 (flat_map visible l) m /\ holder m = owner s /\
    forall k, mode_of m k = Woken -> owner s = None ->
      exists l' s', run s (l' ++ [WaitReturn k]) = Some s' /\
        (l' = [] \/ l' = [WaitAcquire k]) /\ owner s' = Some k.
Proof.
  intros l s F H. destruct (run_simulates l state0 monitor0 s related0 F H) as [m [M R]].
  exists m. split; [exact M|]. split; [apply R|].
  intros k W O. exact (woken_returns s m k R W O).
Qed.

(** A notification is not lost if it comes after the mutex has been released, even before
    the waiting core has begun to wait for its semaphore: nothing but the mutex keeps the
    wait from returning (this holds without the two conditions). *)
Theorem C72_no_lost_notification : forall a k b s,
  run state0 (a ++ WaitBegin k :: b) = Some s ->
  In Notify b -> ~ In (WaitReturn k) b -> owner s = None ->
  exists l s1, run s (l ++ [WaitReturn k]) = Some s1 /\ (l = [] \/ l = [WaitAcquire k]) /\ owner s1 = Some k.
Proof.
  intros a k b s H I N O. rewrite run_app in H.
  destruct (run state0 a) as [s0|]; [|discriminate]. cbn [run] in H.
  destruct (step s0 (WaitBegin k)) as [s1|] eqn:E; [|discriminate].
  apply called_returns; [|exact O]. apply (waiting_called b s1 s k H); [|exact I|exact N].
  cbn [step] in E. destruct (running s0 k); [|discriminate].
  destruct (leave s0 k) as [s2|]; [|discriminate]. cbn [option_map] in E. injection E as E. subst s1.
  left. cbn [move at_]. apply set_same.
Qed.

Example C72_no_lost_notification_ex : exists s,
  run state0 ([Lock false] ++ WaitBegin false :: [Lock true; Notify; Unlock true]) = Some s /\ owner s = None.
Proof. eexists. split; reflexivity. Qed.

Example C72_monitor_ex :
  let l := [Lock false; WaitBegin false; Lock true; Notify; WaitAcquire false; Unlock true;
            WaitReturn false; Unlock false; Lock true; WaitBegin true; WaitAcquire true;
            WaitReturn true] in
  flat_run state0 l /\
  match run state0 l with Some s => owner s = Some true /\ count s = 1%nat | None => False end.
Proof. vm_compute. repeat split. Qed.

(** A wait does not go on for nothing: no core is woken more often than someone has
    notified, in timed waits neither. *)
Theorem C72_woken_by_notifications : forall l s k,
  run state0 l = Some s -> (how_many (wakes k) l <= how_many notifies l)%nat.
Proof. intros l s k H. apply (credit_run k) in H. change (credit k state0) with 0%nat in H. lia. Qed.

Example C72_woken_ex :
  let l := [Lock false; WaitBegin false; Notify; WaitAcquire false; WaitReturn false; TimedBegin false;
            Notify; TimedReturn false false 0] in
  (exists s, run state0 l = Some s) /\ how_many (wakes false) l = 2%nat /\ how_many notifies l = 2%nat.
Proof. split; [eexists; reflexivity|split; reflexivity]. Qed.

(** A timed wait does not release the mutex: until it returns the other core cannot lock
    it, for instance to schedule an event. *)
Theorem C72_timedwait_refuted : forall s k s1 l s2,
  owner s = Some k -> step s (TimedBegin k) = Some s1 ->
  (forall late r, ~ In (TimedReturn k late r) l) -> run s1 l = Some s2 ->
  step s2 (Lock (negb k)) = None.
Proof.
  intros s k s1 l s2 O B N H. cbn [step] in B. destruct (running s k); [|discriminate].
  injection B as B. subst s1.
  destruct (timed_keeps l (move s k TimedWaiting) k s2) as [K1 K2]; [exact O|cbn [move at_]; apply set_same|exact N|exact H|].
  cbn [step]. destruct (running s2 (negb k)); [|reflexivity].
  unfold enter, free_for. rewrite K1. destruct k; reflexivity.
Qed.

Example C72_timedwait_ex : exists s s1 s2,
  run state0 [Lock false] = Some s /\ owner s = Some false /\
  step s (TimedBegin false) = Some s1 /\ run s1 [Notify; TimedReturn false false 0; Unlock false; Lock true] = Some s2 /\
  step s1 (Lock true) = None.
Proof. eexists; eexists; eexists. repeat split; reflexivity. Qed.

(** Nor does a wait with the mutex locked twice. *)
Theorem C72_nested_wait_refuted : exists s,
  run state0 [Lock false; Lock false; WaitBegin false] = Some s /\ step s (Lock true) = None.
Proof. eexists. split; reflexivity. Qed.

Print Assumptions C72_monitor_partial.
Print Assumptions C72_no_lost_notification.
Print Assumptions C72_woken_by_notifications.
Print Assumptions C72_timedwait_refuted.
Print Assumptions C72_nested_wait_refuted.
