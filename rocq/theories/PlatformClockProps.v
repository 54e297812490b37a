(** C68: the platform clock follows the hardware counter and does not go back. *)
From Verif Require Import Base PlatformClock PlatformClockSpec PlatformClockProofs.

(** nRF52: for every history of readings, critical sections and passing time in which no
    overflow of the 32-bit counter is waiting to be handled during a reading, and as long
    as the time fits in 64 bits, every reading returns the true time of some instant of
    the call, in nanoseconds, wherever the overflows fall; so no reading is smaller than
    an earlier one. *)
Theorem C68_nrf52 : forall l,
  history_ok two32 hw0 l -> 1000 * total l <= LLONG_MAX ->
  exists h rs,
    nrf_run hw0 l = Ok (h, rs) /\ length rs = reads l /\
    Forall (true_time 1000) rs /\ nondecreasing (map value rs).
Proof.
  intros l K B.
  assert (I : hinv two32 hw0) by (split; [apply Z.le_refl|split; [reflexivity|discriminate]]).
  destruct (nrf_run_true l hw0 I K B) as [h [rs [R1 [R2 [R3 R4]]]]].
  exists h, rs. split; [exact R1|split; [exact R4|split; [exact R2|]]].
  exact (true_ordered_nondec 1000 rs _ ltac:(discriminate) R2 R3).
Qed.

(** An overflow just before, within and just after a reading, and a critical section. *)
Definition nrf_history : list op :=
  [Pass 4294967290; Read 1 1 1; Read 2 0 5; Mask; Read 1 1 1; Pass 4294967293; Unmask; Read 0 0 0].

Example C68_nrf52_ex :
  history_ok two32 hw0 nrf_history /\ 1000 * total nrf_history <= LLONG_MAX /\
  exists h, nrf_run hw0 nrf_history =
    Ok (h, [mkReading 4294967290 4294967293 4294967291000;
            mkReading 4294967293 4294967300 4294967295000;
            mkReading 4294967300 4294967303 4294967301000;
            mkReading 8589934596 8589934596 8589934596000]).
Proof.
  split; [|split; [vm_compute; discriminate|eexists; vm_compute; reflexivity]].
  vm_compute. repeat split; try discriminate; intros; try discriminate; reflexivity.
Qed.

(** The condition that no overflow is waiting is needed: the runtime reads this clock
    inside critical sections, and there an overflow makes the clock jump back by 71
    minutes. *)
Theorem C68_nrf52_masked_refuted :
  exists l h a b,
    l = [Pass 4294967295; Mask; Read 0 0 0; Pass 1; Read 0 0 0] /\
    nrf_run hw0 l = Ok (h, [a; b]) /\ upto a < from b /\
    value a = 1000 * upto a /\ value b = 0.
Proof.
  eexists; eexists; eexists; eexists. split; [reflexivity|].
  split; [vm_compute; reflexivity|]. repeat split.
Qed.

(** Arduino: a reading is exact during the first 2^32 microseconds (71 minutes) ... *)
Theorem C68_arduino_partial : forall ts,
  Forall (fun t => 0 <= t < two32) ts -> arduino_run arduino0 ts = map (Z.mul 1000) ts.
Proof.
  intros ts F. induction F as [|t ts H F IH]; [reflexivity|].
  cbn [arduino_run map]. unfold arduino_gettime, arduino0. cbn [time_us_low_last time_us_high].
  rewrite (Z.mod_small t) by assumption.
  destruct (Z.ltb_spec t 0) as [L|L]; [lia|].
  fold arduino0. rewrite IH. f_equal.
  replace ((0 * two32 + t) * 1000) with (1000 * t) by lia.
  unfold two32 in H. unfold wrap64, two64.
  rewrite (Z.mod_small (1000 * t)) by lia. rewrite Z.mod_small by lia. lia.
Qed.

Example C68_arduino_ex : arduino_run arduino0 [0; 7; 4294967295] = [0; 7000; 4294967295000].
Proof. vm_compute. reflexivity. Qed.

(** ... but then it starts again from zero, at every overflow: the last value of the
    counter is compared with and never updated, so no overflow is ever detected. *)
Theorem C68_arduino_wraps : forall ts,
  Forall (fun t => 0 <= t) ts -> arduino_run arduino0 ts = map (fun t => 1000 * (t mod two32)) ts.
Proof.
  intros ts F. induction F as [|t ts H F IH]; [reflexivity|].
  cbn [arduino_run map]. unfold arduino_gettime, arduino0. cbn [time_us_low_last time_us_high].
  pose proof (Z.mod_pos_bound t two32 eq_refl) as B. revert B.
  generalize (t mod two32). intros m B.
  destruct (Z.ltb_spec m 0) as [L|L]; [lia|].
  fold arduino0. rewrite IH. f_equal.
  replace ((0 * two32 + m) * 1000) with (1000 * m) by lia.
  unfold two32 in B. unfold wrap64, two64.
  rewrite (Z.mod_small (1000 * m)) by lia. rewrite Z.mod_small by lia. lia.
Qed.

Theorem C68_arduino_refuted :
  exists t1 t2, 0 <= t1 < t2 /\
    arduino_run arduino0 [t1; t2] = [1000 * t1; 0] /\ 0 < 1000 * t1.
Proof. exists 4294967295, 4294967296. vm_compute. repeat split; discriminate. Qed.

(** Seen through [lf_clock_gettime] (which never goes back) the physical time then stands
    still but for one nanosecond per reading, until the counter has caught up: 71 minutes
    later. *)
Theorem C68_arduino_stands_still_refuted : forall last ts,
  Forall (fun t => two32 <= t /\ 1000 * (t - two32) < last) ts ->
  0 <= last <= 1000 * (two32 - 1) ->
  forall n, (n < length ts)%nat ->
  nth n (lf_clock last (arduino_run arduino0 ts)) 0 = last + Z.of_nat n + 1.
Proof.
  intros last ts F B n N.
  rewrite C68_arduino_wraps.
  2:{ eapply Forall_impl; [|exact F]. unfold two32. intros a [A _]. lia. }
  revert n N. assert (Gen : forall ts cur, last <= cur ->
    Forall (fun t => two32 <= t /\ 1000 * (t - two32) < last) ts ->
    forall n, (n < length ts)%nat ->
    nth n (lf_clock cur (map (fun t => 1000 * (t mod two32)) ts)) 0 = cur + Z.of_nat n + 1).
  { clear ts F. induction ts as [|t ts IH]; intros cur C F n N; [cbn in N; lia|].
    inversion F as [|? ? [F1 F2] F3]; subst. cbn [map lf_clock].
    assert (M : t mod two32 = t - two32).
    { symmetry. apply Z.mod_unique_pos with 1; unfold two32 in *; lia. }
    rewrite M. destruct (Z.ltb_spec (1000 * (t - two32)) cur) as [L|L]; [|lia].
    destruct n as [|n]; [cbn [nth]; lia|]. cbn [nth].
    rewrite IH; [lia|lia|exact F3|cbn in N; lia]. }
  intros n N. apply Gen; [apply Z.le_refl|exact F|exact N].
Qed.

Example C68_arduino_stands_still_ex :
  lf_clock 4294967295000 (arduino_run arduino0 [4294967296; 5000000000; 8000000000]) =
  [4294967295001; 4294967295002; 4294967295003].
Proof. vm_compute. reflexivity. Qed.

(** Zephyr with a hardware counter: whatever the histories of interrupts and critical
    sections, and wherever the overflows fall, no reading is smaller than an earlier one. *)
Theorem C68_zephyr_monotone : forall c l z rs,
  zephyr_run c zephyr0 l = Ok (z, rs) -> nondecreasing (map value rs).
Proof.
  intros c l z rs H. pose proof (zephyr_run_mono c l zephyr0 z rs H) as M.
  destruct M as [_ M]. exact M.
Qed.

(** If no overflow is waiting during a reading and none happens within it, the result is
    late by at most one tick and one microsecond per overflow so far, and one more
    microsecond ([freq] ticks are 10^9 ns). *)
Theorem C68_zephyr_partial : forall c l,
  zcfg_ok c -> history_ok (top c + 1) hw0 l -> no_wraps (top c + 1) hw0 l ->
  1000000000 * total l <= freq c * LLONG_MAX ->
  exists z rs,
    zephyr_run c zephyr0 l = Ok (z, rs) /\ length rs = reads l /\
    Forall (fun r =>
      freq c * value r <= 1000000000 * from r <=
      freq c * value r + (from r / (top c + 1)) * (1000000000 + 1000 * freq c) + 1000 * freq c) rs.
Proof.
  intros c l C K W B.
  assert (I : hinv (top c + 1) hw0) by (split; [apply Z.le_refl|split; [reflexivity|discriminate]]).
  pose proof (total_nonneg _ _ _ K) as N.
  destruct (zephyr_run_raw c l zephyr0 C I K W) as [z [rs [R1 [R2 R3]]]].
  - cbn [last_nsec zhw zephyr0 ticks hw0]. unfold zraw.
    rewrite Z.mod_0_l, Z.div_0_l by (destruct C; lia). unfold ticks_to_us.
    change (0 * 1000000) with 0. rewrite Z.div_0_l by (destruct C; lia). lia.
  - cbn [zhw zephyr0 ticks hw0]. rewrite Z.add_0_l.
    pose proof (proj1 (zraw_error c (total l) C N)) as Z1.
    destruct C as [C1 C2]. nia.
  - exists z, rs. split; [exact R1|split; [exact R3|]].
    eapply Forall_impl; [|exact R2]. intros r [V F]. rewrite V.
    destruct (zraw_error c (from r) C F) as [E1 E2]. split; assumption.
Qed.

Definition zephyr_16bit : zcfg := mkZcfg 1000000 65535.

Definition zephyr_history : list op :=
  [Pass 65000; Read 0 3 0; Pass 1000; Mask; Read 1 0 1; Pass 65536; Unmask; Read 0 0 0].

Example C68_zephyr_ex :
  zcfg_ok zephyr_16bit /\ history_ok 65536 hw0 zephyr_history /\ no_wraps 65536 hw0 zephyr_history /\
  1000000000 * total zephyr_history <= 1000000 * LLONG_MAX /\
  exists z, zephyr_run zephyr_16bit zephyr0 zephyr_history =
    Ok (z, [mkReading 65000 65003 65000000; mkReading 66003 66005 66002000;
            mkReading 131541 131541 131539000]).
Proof.
  split; [vm_compute; repeat split; reflexivity|].
  split; [vm_compute; repeat split; try discriminate; intros; try discriminate; reflexivity|].
  split; [vm_compute; repeat split; reflexivity|].
  split; [vm_compute; discriminate|]. eexists. vm_compute. reflexivity.
Qed.

(** The counter has one value more than the duration of an epoch counts, so the clock
    loses a tick per overflow: with a 16-bit counter at 1 MHz one second in 18 hours. *)
Theorem C68_zephyr_drift_refuted :
  exists l z r,
    history_ok 65536 hw0 l /\ no_wraps 65536 hw0 l /\
    zephyr_run zephyr_16bit zephyr0 l = Ok (z, [r]) /\
    1000 * from r - value r = 1000000000.
Proof.
  exists [Pass 65536000000; Read 0 0 0]. eexists; eexists.
  split; [vm_compute; repeat split; try discriminate; intros; discriminate|].
  split; [vm_compute; repeat split|].
  split; [vm_compute; reflexivity|]. vm_compute. reflexivity.
Qed.

(** The counter is read before the epoch: an overflow between the two makes the clock jump
    ahead by an epoch, after which it all but stands still for as long: here 60 ms pass and
    the clock moves by 1 ns. *)
Theorem C68_zephyr_race_refuted :
  exists l z a b,
    history_ok 65536 hw0 l /\
    zephyr_run zephyr_16bit zephyr0 l = Ok (z, [a; b]) /\
    1000 * upto a + 65000000 < value a /\
    upto a + 60000 <= from b /\ value b = value a + 1.
Proof.
  exists [Pass 65535; Read 0 1 0; Pass 60000; Read 0 0 0]. eexists; eexists; eexists.
  split; [vm_compute; repeat split; try discriminate; intros; discriminate|].
  split; [vm_compute; reflexivity|]. vm_compute. repeat split; discriminate.
Qed.

(** Zephyr with the kernel timer at [f] ticks per second: the conversion is exact if and
    only if [f] divides 10^9, otherwise the clock is slow by 10^9 mod f nanoseconds per
    second. *)
Theorem C68_kernel : forall f n,
  0 < f -> 0 <= n -> n * 1000000000 <= f * LLONG_MAX ->
  exists v, ticks_to_nsec f n = Ok v /\ v * f = n * (1000000000 - 1000000000 mod f).
Proof.
  intros f n F N B.
  assert (Mul : forall a b, 0 <= a -> 0 <= b -> a * b <= LLONG_MAX -> c_mul64 a b = Ok (a * b)).
  { intros a b A0 B0 AB. unfold c_mul64, in_int64b.
    replace ((LLONG_MIN <=? a * b) && (a * b <=? LLONG_MAX)) with true; [reflexivity|].
    symmetry. apply andb_true_intro. split; apply Z.leb_le; unfold LLONG_MIN; nia. }
  unfold ticks_to_nsec.
  destruct (Z.eqb_spec f 100) as [E|_].
  { subst f. rewrite Mul by lia. cbn [bind]. rewrite Mul by lia.
    eexists; split; [reflexivity|]. change (1000000000 mod 100) with 0. lia. }
  destruct (Z.eqb_spec f 1000) as [E|_].
  { subst f. rewrite Mul by lia. eexists; split; [reflexivity|].
    change (1000000000 mod 1000) with 0. lia. }
  destruct (Z.eqb_spec f 10000) as [E|_].
  { subst f. rewrite Mul by lia. cbn [bind]. rewrite Mul by lia.
    eexists; split; [reflexivity|]. change (1000000000 mod 10000) with 0. lia. }
  destruct (Z.eqb_spec f 100000) as [E|_].
  { subst f. rewrite Mul by lia. cbn [bind]. rewrite Mul by lia.
    eexists; split; [reflexivity|]. change (1000000000 mod 100000) with 0. lia. }
  destruct (Z.eqb_spec f 1000000) as [E|_].
  { subst f. rewrite Mul by lia. cbn [bind]. rewrite Mul by lia.
    eexists; split; [reflexivity|]. change (1000000000 mod 1000000) with 0. lia. }
  destruct (Z.eqb_spec f 10000000) as [E|_].
  { subst f. rewrite Mul by lia. cbn [bind]. rewrite Mul by lia.
    eexists; split; [reflexivity|]. change (1000000000 mod 10000000) with 0. lia. }
  pose proof (Z.div_mod 1000000000 f ltac:(lia)) as D.
  pose proof (Z.div_pos 1000000000 f ltac:(lia) F) as P.
  pose proof (Z.mod_pos_bound 1000000000 f F) as R.
  generalize dependent (1000000000 mod f). generalize dependent (1000000000 / f).
  intros q P r D R.
  rewrite Mul; [|lia|lia|nia].
  eexists; split; [reflexivity|]. nia.
Qed.

Example C68_kernel_ex :
  ticks_to_nsec 100 250 = Ok 2500000000 /\ ticks_to_nsec 1000 2500 = Ok 2500000000 /\
  ticks_to_nsec 10000000 25 = Ok 2500 /\ ticks_to_nsec 128 64 = Ok 500000000.
Proof. vm_compute. repeat split. Qed.

(** At 32768 Hz one hour is 68 ms short. *)
Theorem C68_kernel_drift_refuted :
  exists v, ticks_to_nsec 32768 (3600 * 32768) = Ok v /\ 3600 * 1000000000 - v = 68198400.
Proof. eexists. split; [vm_compute; reflexivity|]. vm_compute. reflexivity. Qed.

(** POSIX: times are converted to [struct timespec] and back without loss, and for times
    that are not negative the result is one the system calls accept. *)
Theorem C68_timespec : forall t,
  in_int64 t ->
  convert_timespec_to_ns (convert_ns_to_timespec t) = Ok t /\
  (0 <= t -> 0 <= tv_sec (convert_ns_to_timespec t) /\
             0 <= tv_nsec (convert_ns_to_timespec t) < 1000000000).
Proof.
  intros t [T1 T2]. unfold convert_timespec_to_ns, convert_ns_to_timespec.
  cbn [tv_sec tv_nsec]. unfold BILLION.
  pose proof (Z.quot_rem' t 1000000000) as Q.
  assert (A : t < 0 -> -1000000000 < Z.rem t 1000000000 <= 0).
  { intros L. pose proof (Z.rem_bound_abs t 1000000000 ltac:(lia)). pose proof (Z.rem_nonpos t 1000000000 ltac:(lia) ltac:(lia)). lia. }
  assert (B : 0 <= t -> 0 <= Z.rem t 1000000000 < 1000000000).
  { intros L. apply Z.rem_bound_pos; lia. }
  generalize dependent (Z.rem t 1000000000). generalize dependent (Z.quot t 1000000000).
  intros q r Q A B. unfold c_mul64, c_add64, in_int64b, LLONG_MIN, LLONG_MAX in *.
  replace ((-9223372036854775808 <=? q * 1000000000) && (q * 1000000000 <=? 9223372036854775807))
    with true.
  2:{ symmetry. apply andb_true_intro.
      destruct (Z.lt_ge_cases t 0) as [L|L]; [specialize (A L)|specialize (B L)];
      split; apply Z.leb_le; lia. }
  cbn [bind].
  replace (q * 1000000000 + r) with t by lia.
  replace ((-9223372036854775808 <=? t) && (t <=? 9223372036854775807)) with true.
  2:{ symmetry. apply andb_true_intro. split; apply Z.leb_le; lia. }
  split; [reflexivity|]. intros L. specialize (B L). lia.
Qed.

Theorem C68_timespec_back : forall tp t,
  0 <= tv_sec tp -> 0 <= tv_nsec tp < 1000000000 ->
  convert_timespec_to_ns tp = Ok t -> convert_ns_to_timespec t = tp.
Proof.
  intros [s n] t S N H. cbn in S, N. unfold convert_timespec_to_ns in H. cbn [tv_sec tv_nsec] in H.
  unfold c_mul64, c_add64 in H.
  destruct (in_int64b (s * BILLION)); cbn [bind] in H; [|discriminate].
  destruct (in_int64b (s * BILLION + n)); [|discriminate].
  injection H as H. subst t. unfold convert_ns_to_timespec, BILLION.
  f_equal.
  - symmetry. apply Z.quot_unique with n; lia.
  - symmetry. apply Z.rem_unique with s; lia.
Qed.

Example C68_timespec_ex :
  convert_ns_to_timespec 1700000000123456789 = mkTimespec 1700000000 123456789 /\
  convert_timespec_to_ns (mkTimespec 1700000000 123456789) = Ok 1700000000123456789.
Proof. vm_compute. split; reflexivity. Qed.

(** A negative time (such as a negative sleep) gives nanoseconds below zero, which
    nanosleep and pthread_cond_timedwait reject. *)
Theorem C68_timespec_negative_refuted :
  exists t, in_int64 t /\ tv_nsec (convert_ns_to_timespec t) < 0.
Proof. exists (-1). vm_compute. repeat split; discriminate. Qed.

Print Assumptions C68_nrf52.
Print Assumptions C68_nrf52_masked_refuted.
Print Assumptions C68_arduino_partial.
Print Assumptions C68_arduino_wraps.
Print Assumptions C68_arduino_refuted.
Print Assumptions C68_arduino_stands_still_refuted.
Print Assumptions C68_zephyr_monotone.
Print Assumptions C68_zephyr_partial.
Print Assumptions C68_zephyr_drift_refuted.
Print Assumptions C68_zephyr_race_refuted.
Print Assumptions C68_kernel.
Print Assumptions C68_kernel_drift_refuted.
Print Assumptions C68_timespec.
Print Assumptions C68_timespec_back.
Print Assumptions C68_timespec_negative_refuted.
