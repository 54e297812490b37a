(** C104: timed waits on Arduino boards. *)
From Verif Require Import Base ArduinoWait ArduinoWaitSpec.
Open Scope Z_scope.

Lemma int64_ok z : - 2 ^ 63 <= z < 2 ^ 63 -> in_int64b z = true.
Proof. change (2 ^ 63) with 9223372036854775808. unfold in_int64b, LLONG_MIN, LLONG_MAX. lia. Qed.
Lemma ms_short d : 0 <= d < LIMIT -> wait_for_ms d * 1000000 <= d < wait_for_ms d * 1000000 + 1000000 /\ 0 <= wait_for_ms d.
Proof.
  unfold LIMIT. intros D. unfold wait_for_ms, uint32. rewrite Z.quot_div_nonneg by lia. pose proof (Z.div_mod d 1000000 ltac:(lia)). pose proof (Z.mod_pos_bound d 1000000 ltac:(lia)).
  change (2 ^ 32) with 4294967296. rewrite Z.mod_small; [lia|]. split; [apply Z.div_pos; lia|apply Z.div_lt_upper_bound; lia].
Qed.

(** In a wait of less than 49.7 days, a timeout is never more than a millisecond early, and the wait is not asked to last longer than until its time.
    Missing: the last millisecond ([C104_early_refuted]), longer waits ([C104_wrap_refuted]) and times that have passed ([C104_late_refuted]). *)
Theorem C104_timeout_partial now w later k : 0 <= w - now < LIMIT ->
  exists ms, timedwait_ms now w = Ok ms /\ now + ms * 1000000 <= w
  /\ (ends ms now later k -> cond_timedwait now w k = Ok LF_TIMEOUT -> w - 1000000 < later).
Proof.
  intros D. unfold cond_timedwait, timedwait_ms. rewrite int64_ok by (unfold LIMIT in D; change (2 ^ 63) with 9223372036854775808; lia). destruct (ms_short _ D) as [A _].
  exists (wait_for_ms (w - now)). split; [reflexivity|]. split; [lia|]. intros (_ & E1 & _) H. destruct k; [|discriminate]. destruct (E1 eq_refl). lia.
Qed.
Example C104_timeout_ex : timedwait_ms 5 2500006 = Ok 2 /\ ends 2 5 2000005 true /\ ends 2 5 1000 false /\ cond_timedwait 5 2500006 true = Ok LF_TIMEOUT.
Proof. split; [reflexivity|]. split; [split; [lia|split; [intros _; split; [discriminate|lia]|discriminate]]|]. split; [split; [lia|split; [discriminate|intros _; right; lia]]|reflexivity]. Qed.

(** A program goes on less than a millisecond before the time it waits for, or because it was in fast mode; a notification makes it look again. *)
Theorem C104_wait_partial now1 now2 w later k : now1 <= now2 <= w -> w - now1 < LIMIT ->
  (forall ms, timedwait_ms now2 w = Ok ms -> ends ms now2 later k) -> wait_until false now1 now2 w k = Ok true -> w - now1 < MIN_SLEEP_DURATION \/ (k = true /\ w - 1000000 < later).
Proof.
  intros N D E1 H. unfold wait_until in H. destruct (negb (in_int64b (w - now1))); [discriminate|]. destruct (Z.ltb_spec (w - now1) MIN_SLEEP_DURATION) as [L|L]; [now left|]. right.
  destruct (C104_timeout_partial now2 w later k ltac:(lia)) as (ms & A & _ & B). specialize (E1 ms A). unfold cond_timedwait in *. rewrite A in *. destruct k; [|discriminate]. split; [reflexivity|]. now apply B.
Qed.
Theorem C104_notified now1 now2 w : - 2 ^ 63 <= w - now1 < 2 ^ 63 -> - 2 ^ 63 <= w - now2 < 2 ^ 63 -> MIN_SLEEP_DURATION <= w - now1 -> wait_until false now1 now2 w false = Ok false.
Proof.
  intros A B C. unfold wait_until, cond_timedwait, timedwait_ms. rewrite (int64_ok _ A), (int64_ok _ B). cbn [negb]. destruct (Z.ltb_spec (w - now1) MIN_SLEEP_DURATION); [lia|reflexivity].
Qed.
Example C104_wait_ex : wait_until false 0 10 5000000 true = Ok true /\ wait_until false 0 10 5000000 false = Ok false /\ wait_until false 0 10 9999 false = Ok true /\ timedwait_ms 10 5000000 = Ok 4 /\ ends 4 10 4000010 true.
Proof. split; [reflexivity|]. split; [reflexivity|]. split; [reflexivity|]. split; [reflexivity|]. split; [lia|split; [intros _; split; [discriminate|lia]|discriminate]]. Qed.

(** A program goes on exactly in fast mode, when less than 10 microseconds are left, or after a timeout; otherwise it looks at its events again. *)
Theorem C104_goes fast now1 now2 w k b : wait_until fast now1 now2 w k = Ok b -> (b = true <-> fast = true \/ w - now1 < 10000 \/ k = true).
Proof.
  unfold wait_until. destruct fast; [intros [= <-]; split; auto|]. destruct (negb (in_int64b (w - now1))); [discriminate|]. unfold MIN_SLEEP_DURATION. destruct (Z.ltb_spec (w - now1) 10000) as [L|L]; [intros [= <-]; split; auto|].
  unfold cond_timedwait. destruct (timedwait_ms now2 w); [|discriminate]. destruct k; cbn; intros [= <-]; (split; [intros H|intros [H|[H|H]]]); auto; first [discriminate|lia].
Qed.
Example C104_goes_ex : wait_until true 0 0 5000000 false = Ok true /\ wait_until false 0 0 9999 false = Ok true /\ wait_until false 0 0 10000 false = Ok false /\ wait_until false 0 0 10000 true = Ok true.
Proof. repeat split. Qed.

(** Milliseconds are rounded down: if the time is not a whole number of milliseconds away, the program can go on before it. *)
Theorem C104_early_refuted now w : MIN_SLEEP_DURATION <= w - now < LIMIT - 1000000 -> (w - now) mod 1000000 <> 0 ->
  exists ms later, timedwait_ms now w = Ok ms /\ ends ms now later true /\ later < w /\ wait_until false now now w true = Ok true.
Proof.
  intros D M. destruct (ms_short (w - now) ltac:(unfold LIMIT, MIN_SLEEP_DURATION in *; lia)) as [A P]. exists (wait_for_ms (w - now)), (now + wait_for_ms (w - now) * 1000000).
  unfold wait_until, cond_timedwait, timedwait_ms. rewrite int64_ok by (unfold LIMIT, MIN_SLEEP_DURATION in D; change (2 ^ 63) with 9223372036854775808; lia). split; [reflexivity|]. split; [|split].
  - split; [lia|]. split; [|discriminate]. intros _. split; [|lia]. unfold FOREVER_MS, LIMIT in *. lia.
  - assert (X : wait_for_ms (w - now) * 1000000 <> w - now) by (intros X; apply M; rewrite <- X; apply Z.mod_mul; lia). lia.
  - cbn [negb]. destruct (Z.ltb_spec (w - now) MIN_SLEEP_DURATION); [lia|reflexivity].
Qed.
Example C104_early_ex : MIN_SLEEP_DURATION <= 1999999 - 0 < LIMIT - 1000000 /\ (1999999 - 0) mod 1000000 <> 0 /\ timedwait_ms 0 1999999 = Ok 1.
Proof. split; [split; [discriminate|reflexivity]|]. split; [discriminate|reflexivity]. Qed.

(** Longer waits lose the upper part of their length: they last at least 49.7 days less than they should. *)
Theorem C104_wrap_refuted now w : LIMIT <= w - now < 2 ^ 63 -> exists ms, timedwait_ms now w = Ok ms /\ now + ms * 1000000 <= w - LIMIT.
Proof.
  intros D. unfold timedwait_ms. rewrite int64_ok by (unfold LIMIT in D; change (2 ^ 63) with 9223372036854775808 in *; lia). exists (wait_for_ms (w - now)). split; [reflexivity|]. unfold LIMIT in D. change (2 ^ 63) with 9223372036854775808 in D.
  unfold wait_for_ms, uint32. change (2 ^ 32) with 4294967296. rewrite Z.quot_div_nonneg by lia. set (d := w - now) in *. pose proof (Z.div_mod d 1000000 ltac:(lia)). pose proof (Z.mod_pos_bound d 1000000 ltac:(lia)).
  set (q := d / 1000000) in *. assert (Q : 4294967296 <= q) by lia. pose proof (Z.div_mod q 4294967296 ltac:(lia)). assert (1 <= q / 4294967296) by (apply Z.div_le_lower_bound; lia). unfold LIMIT. lia.
Qed.
(** A program without events that waits for ever wakes up after 24 days and takes it for a timeout. *)
Example C104_wrap_ex : LIMIT <= 9223372036854775807 - 0 < 2 ^ 63 /\ timedwait_ms 0 9223372036854775807 = Ok 2077252342 /\ wait_until false 0 0 9223372036854775807 true = Ok true.
Proof. split; [split; [discriminate|reflexivity]|]. split; reflexivity. Qed.

(** If the time has passed by a millisecond or more when the wait begins, the wait lasts 24 days or more. *)
Theorem C104_late_refuted now w : - (2147483648 * 1000000) <= w - now <= - 1000000 -> exists ms, timedwait_ms now w = Ok ms /\ 2147483648 <= ms.
Proof.
  intros D. unfold timedwait_ms. rewrite int64_ok by (change (2 ^ 63) with 9223372036854775808; lia). eexists. split; [reflexivity|]. unfold wait_for_ms, uint32. change (2 ^ 32) with 4294967296.
  replace (w - now) with (- (now - w)) by lia. rewrite Z.quot_opp_l by lia. rewrite Z.quot_div_nonneg by lia. set (q := (now - w) / 1000000). assert (Q : 1 <= q <= 2147483648).
  { unfold q. split; [apply Z.div_le_lower_bound; lia|]. apply Z.div_le_upper_bound; lia. }
  replace (- q) with ((4294967296 - q) + (-1) * 4294967296) by lia. rewrite Z.mod_add by lia. rewrite Z.mod_small by lia. lia.
Qed.
(** This happens if the thread is held up between the two readings of the clock. *)
Example C104_late_ex : timedwait_ms 3000000 20000 = Ok 4294967294 /\ wait_until false 0 3000000 20000 false = Ok false.
Proof. split; reflexivity. Qed.

Print Assumptions C104_timeout_partial.
Print Assumptions C104_wait_partial.
Print Assumptions C104_notified.
Print Assumptions C104_goes.
Print Assumptions C104_early_refuted.
Print Assumptions C104_wrap_refuted.
Print Assumptions C104_late_refuted.
