(** C103: clocks and waits on Windows. *)
From Verif Require Import Base Windows WindowsSpec.
Open Scope Z_scope.
Local Open Scope list_scope.

(** The clock counts nanoseconds, for every frequency of the counter, and does not go back when the counter does not.
    Missing: the rounding of double, and a counter that cannot be read ([C103_clock_refuted]). *)
Theorem C103_clock_partial f c high low : 0 < f -> 0 <= c ->
  exists t, clock_gettime (initialize_clock (Some f)) (Some c) high low = (0, Some t) /\ t * f <= c * BILLION < (t + 1) * f
  /\ forall c' t', c <= c' -> clock_gettime (initialize_clock (Some f)) (Some c') high low = (0, Some t') -> t <= t'.
Proof.
  intros F C. cbn [clock_gettime initialize_clock use_performance_counter to_ns_num to_ns_den]. exists (Z.quot (c * BILLION) f). split; [reflexivity|].
  assert (P : 0 <= c * BILLION) by (unfold BILLION; lia). rewrite (Z.quot_div_nonneg _ _ P F). split.
  - pose proof (Z.div_mod (c * BILLION) f ltac:(lia)). pose proof (Z.mod_pos_bound (c * BILLION) f F). nia.
  - intros c' t' L [= <-]. rewrite Z.quot_div_nonneg by (unfold BILLION in *; lia). apply Z.div_le_mono; [exact F|]. unfold BILLION. lia.
Qed.
Example C103_clock_ex : clock_gettime (initialize_clock (Some 10000000)) (Some 123456789) 0 0 = (0, Some 12345678900) /\ clock_gettime (initialize_clock (Some 3)) (Some 1) 0 0 = (0, Some 333333333).
Proof. split; reflexivity. Qed.

(** Without a counter, the date in units of 100 ns is used. *)
Theorem C103_date high low c : 0 <= high < 2 ^ 32 -> 0 <= low < 2 ^ 32 -> clock_gettime (initialize_clock None) c high low = (0, Some ((high * 2 ^ 32 + low) * 100)).
Proof.
  intros Hi Lo. cbn [clock_gettime initialize_clock use_performance_counter to_ns_num to_ns_den]. rewrite Z.quot_1_r. do 3 f_equal.
  rewrite Z.shiftl_mul_pow2 by lia. symmetry. rewrite <- Z.lxor_lor, Z.add_nocarry_lxor; [reflexivity| |].
  all: apply Z.bits_inj'; intros n N; rewrite Z.land_spec, Z.bits_0, <- Z.shiftl_mul_pow2 by lia; destruct (Z.lt_ge_cases n 32) as [X|X].
  all: try (rewrite Z.shiftl_spec_low by exact X; reflexivity).
  all: rewrite (Z.bits_above_log2 low n); [apply Bool.andb_false_r|lia|].
  all: destruct (Z.eq_dec low 0) as [->|Z0]; [cbn; lia|]; apply Z.lt_le_trans with 32; [apply Z.log2_lt_pow2; lia|exact X].
Qed.
Example C103_date_ex : clock_gettime (initialize_clock None) None 31000000 77 = (0, Some 13314398617600007700).
Proof. reflexivity. Qed.

(** A sleep is at most 99 ns too short. *)
Theorem C103_sleep e d : works e -> 0 <= d -> let '(_, t) := lf_sleep e d in d - 99 <= t /\ (late e = 0 -> t <= d).
Proof.
  intros (C & W & L) D. unfold lf_sleep. rewrite C, W. cbn [negb]. unfold timer_duration. rewrite Z.quot_div_nonneg by lia.
  pose proof (Z.div_mod d 100 ltac:(lia)). pose proof (Z.mod_pos_bound d 100 ltac:(lia)). pose proof (Z.div_pos d 100 D ltac:(lia)). destruct (Z.ltb_spec (-1 * (d / 100)) 0); lia.
Qed.
Example C103_sleep_ex : works (mkTimer true true 0) /\ lf_sleep (mkTimer true true 0) 12345 = (TRUE, 12300) /\ lf_sleep (mkTimer true true 0) 99 = (TRUE, 0).
Proof. repeat split; cbn; lia. Qed.

(** A single-threaded program whose timers work never advances its tag before the time of the tag, although sleeps are too short: a
    sleep that ends well counts as interrupted, so the program looks at the clock again.  Missing: timers that do not work ([C103_early_refuted]). *)
Theorem C103_wait_partial es : forall now w t, Forall works es -> next_wait es now w = Some t -> w <= t.
Proof.
  induction es as [|e es IH]; intros now w t F H; cbn [next_wait] in H; [discriminate|]. inversion F as [|? ? F1 F2]; subst. unfold sleep_until in H.
  destruct (Z.leb_spec (w - now) 0) as [L|L]; [cbn in H; injection H as <-; lia|]. unfold lf_sleep in H. destruct F1 as (C & W & _). rewrite C, W in H. cbn [negb] in H. cbn [TRUE Z.eqb] in H. eapply IH; eauto.
Qed.
(** It does advance it, at the second look at the clock, if the first sleep is not too short. *)
Theorem C103_advances e e' es now w : works e -> 99 <= late e -> now < w -> next_wait (e :: e' :: es) now w = Some (now + snd (lf_sleep e (w - now))).
Proof.
  intros W L N. pose proof (C103_sleep e (w - now) W ltac:(lia)) as S1. cbn [next_wait]. unfold sleep_until at 1. destruct (Z.leb_spec (w - now) 0); [lia|].
  destruct (lf_sleep e (w - now)) as [r d] eqn:Q. destruct S1 as [S1 _]. cbn [snd]. assert (D : w - now <= d).
  { destruct W as (C & W & _). unfold lf_sleep in Q. rewrite C, W in Q. cbn [negb] in Q. assert (Ed : d = timer_duration (-1 * Z.quot (w - now) 100) + late e) by congruence. clear Q. unfold timer_duration in Ed. rewrite Z.quot_div_nonneg in Ed by lia.
    pose proof (Z.div_mod (w - now) 100 ltac:(lia)). pose proof (Z.mod_pos_bound (w - now) 100 ltac:(lia)). pose proof (Z.div_pos (w - now) 100 ltac:(lia) ltac:(lia)). destruct (Z.ltb_spec (-1 * ((w - now) / 100)) 0); lia. }
  assert (R : r = TRUE) by (destruct W as (C & W & _); unfold lf_sleep in Q; rewrite C, W in Q; cbn [negb] in Q; congruence). rewrite R. cbn [TRUE Z.eqb].
  unfold sleep_until. destruct (Z.leb_spec (w - (now + d)) 0); [|lia]. cbn [Z.eqb]. f_equal. lia.
Qed.
Example C103_wait_ex : Forall works [mkTimer true true 20; mkTimer true true 0; mkTimer true true 40; mkTimer true true 0]
  /\ next_wait [mkTimer true true 20; mkTimer true true 0; mkTimer true true 40] 0 230 = None
  /\ next_wait [mkTimer true true 20; mkTimer true true 0; mkTimer true true 40; mkTimer true true 0] 0 230 = Some 260
  /\ next_wait [mkTimer true true 500; mkTimer true true 0] 0 1000 = Some 1500.
Proof. split; [repeat constructor; cbn; lia|]. repeat split. Qed.

(** A timed wait on a condition that says that its time has come is right, and asks for less than a millisecond too much. *)
Theorem C103_timeout now w ms later k : timedwait_plan now w = Ok (Wait ms) -> ends ms now later k ->
  (timedwait_result k = LF_TIMEOUT -> w <= later) /\ (ms <> INFINITE -> w <= now + ms * 1000000 < w + 1000000).
Proof.
  unfold timedwait_plan. cbv zeta. destruct (negb (in_int64b (w - now))); [discriminate|]. destruct (Z.leb_spec (w - now) 0) as [L|L]; [discriminate|].
  destruct (negb (in_int64b (w - now + 999999))); [discriminate|]. rewrite Z.quot_div_nonneg by lia. set (d := w - now) in *. intros H (A & B).
  pose proof (Z.div_mod (d + 999999) 1000000 ltac:(lia)) as D. pose proof (Z.mod_pos_bound (d + 999999) 1000000 ltac:(lia)) as M.
  destruct (Z.ltb_spec INFINITE ((d + 999999) / 1000000)) as [X|X].
  - injection H as <-. split; [|congruence]. destruct k; cbn; try discriminate. destruct B. congruence.
  - destruct (_ <=? 0); [discriminate|]. injection H as <-. split; [|intros _; subst d; lia]. destruct k; cbn; try discriminate. intros _. destruct B as [_ B]. subst d. lia.
Qed.
Example C103_timeout_ex : timedwait_plan 5 2500006 = Ok (Wait 3) /\ ends 3 5 3000005 TimedOut /\ ends 3 5 7 Signalled /\ cond_timedwait 5 2500006 TimedOut = Ok LF_TIMEOUT.
Proof. split; [reflexivity|]. split; [split; [lia|split; [discriminate|lia]]|]. split; [split; [lia|exact I]|reflexivity]. Qed.

(** A counter that cannot be read is reported as a success, and no time is written. *)
Theorem C103_clock_refuted f high low : clock_gettime (initialize_clock (Some f)) None high low = (0, None).
Proof. reflexivity. Qed.
(** A sleep returns 1 if it went well and 0 if it failed, instead of 0 and -1. *)
Theorem C103_result_refuted e d : (created e = true -> was_set e = true -> fst (lf_sleep e d) = 1) /\ (created e = false \/ was_set e = false -> fst (lf_sleep e d) = 0).
Proof. unfold lf_sleep. split; [intros -> ->; reflexivity|]. intros [-> | ->]; [reflexivity|]. now destruct (created e). Qed.
Example C103_result_ex : lf_sleep (mkTimer false true 0) 5000000 = (0, 0) /\ lf_sleep (mkTimer true true 0) 5000000 = (1, 5000000).
Proof. split; reflexivity. Qed.
(** So when a timer cannot be made, the tag is advanced at once, before its time. *)
Theorem C103_early_refuted e es now w : now < w -> created e = false \/ was_set e = false -> next_wait (e :: es) now w = Some now.
Proof.
  intros N F. cbn [next_wait]. unfold sleep_until. destruct (Z.leb_spec (w - now) 0); [lia|]. assert (Q : lf_sleep e (w - now) = (FALSE, 0)).
  { unfold lf_sleep. destruct F as [-> | ->]; [reflexivity|]. now destruct (created e). }
  rewrite Q. cbn [FALSE Z.eqb]. f_equal. lia.
Qed.
Example C103_early_ex : next_wait [mkTimer false true 0] 0 3600000000000 = Some 0.
Proof. reflexivity. Qed.
(** A wait of 50 days or more is infinite: it never times out. *)
Theorem C103_forever_refuted now w later : 4294967294000000 < w - now < 2 ^ 63 - 1000000 -> timedwait_plan now w = Ok (Wait INFINITE) /\ ~ ends INFINITE now later TimedOut.
Proof.
  intros L. change (2 ^ 63) with 9223372036854775808 in L. split; [|intros (_ & H & _); congruence]. unfold timedwait_plan. cbv zeta.
  assert (A : in_int64b (w - now) = true) by (unfold in_int64b, LLONG_MIN, LLONG_MAX; lia). assert (B : in_int64b (w - now + 999999) = true) by (unfold in_int64b, LLONG_MIN, LLONG_MAX; lia). rewrite A, B. cbn [negb].
  destruct (Z.leb_spec (w - now) 0); [lia|]. rewrite Z.quot_div_nonneg by lia. pose proof (Z.div_mod (w - now + 999999) 1000000 ltac:(lia)). pose proof (Z.mod_pos_bound (w - now + 999999) 1000000 ltac:(lia)).
  set (m := (w - now + 999999) / 1000000) in *. destruct (Z.ltb_spec INFINITE m) as [X|X]; [reflexivity|]. destruct (Z.leb_spec m 0); [lia|]. do 2 f_equal. unfold INFINITE in *. lia.
Qed.
Example C103_forever_ex : 4294967294000000 < 5000000000000000 - 3 < 2 ^ 63 - 1000000.
Proof. split; reflexivity. Qed.
(** A wait for a time that has passed does not say so: it looks like a wait that was interrupted. *)
Theorem C103_passed_refuted now w k : w <= now -> now - w < 2 ^ 63 -> cond_timedwait now w k = Ok 0.
Proof.
  intros L B. change (2 ^ 63) with 9223372036854775808 in B. unfold cond_timedwait, timedwait_plan. cbv zeta. assert (A : in_int64b (w - now) = true) by (unfold in_int64b, LLONG_MIN, LLONG_MAX; lia). rewrite A. cbn [negb].
  destruct (Z.leb_spec (w - now) 0); [reflexivity|lia].
Qed.
Example C103_passed_ex : cond_timedwait 10 9 TimedOut = Ok 0 /\ cond_timedwait 10 11 TimedOut = Ok LF_TIMEOUT.
Proof. split; reflexivity. Qed.
(** The exit status of a thread is lost: whatever it is, 0 is stored. *)
Theorem C103_join_refuted status : thread_join false status = (0, 0).
Proof. reflexivity. Qed.

Print Assumptions C103_clock_partial.
Print Assumptions C103_date.
Print Assumptions C103_sleep.
Print Assumptions C103_wait_partial.
Print Assumptions C103_advances.
Print Assumptions C103_timeout.
Print Assumptions C103_clock_refuted.
Print Assumptions C103_result_refuted.
Print Assumptions C103_early_refuted.
Print Assumptions C103_forever_refuted.
Print Assumptions C103_passed_refuted.
Print Assumptions C103_join_refuted.
