(** C70: interruptible sleeps wake up on time and on events. *)
From Verif Require Import Base PlatformSleep PlatformSleepSpec PlatformSleepProofs.

Lemma weaken_prompt : forall k u, prompt k u -> (k <= 1)%nat ->
  forall a m b, u = a ++ m :: b -> notified m = true -> (length b <= 1)%nat.
Proof. intros k u P K a m b E N. specialize (P a m b E N). lia. Qed.

(** Patmos (busy waiting): sound without tolerance, and it ends within the resolution of
    the clock. *)
Theorem C70_patmos : sound 0 sleep_patmos /\ ends 1000 sleep_patmos.
Proof.
  split.
  - intros wakeup t l code t' rest T F H.
    destruct (busy_sound wakeup l t code t' rest H F) as [u [U1 [U2 [U3 U4]]]].
    exists u. split; [exact U1|]. split; [lia|].
    split; [|exact (weaken_prompt 1 u U4 ltac:(lia))].
    destruct U3 as [[A [B _]]|[A B]]; [left; split; [exact A|lia]|right; split; assumption].
  - intros wakeup t l m1 m2 T F H.
    destruct (busy_ends wakeup (l ++ [m1]) t m2 F) as [code [t' [rest R]]].
    + destruct H as [H|H]; [left; apply noticed_app; exact H|right].
      rewrite span_app. assert (0 <= span [m1]); [|lia].
      apply span_nonneg. unfold forward in *. rewrite Forall_app in F. apply F.
    + destruct l; discriminate.
    + exists code, t', rest. rewrite <- app_assoc in R. exact R.
Qed.

(** Moreover it returns -1 exactly if an event was notified during the call. *)
Theorem C70_patmos_exact : forall wakeup t l code t' rest,
  forward l -> sleep_patmos wakeup t l = Returned code t' rest ->
  exists used, l = used ++ rest /\ (code = -1 <-> noticed used) /\ (code = 0 <-> ~ noticed used).
Proof.
  intros wakeup t l code t' rest F H.
  destruct (busy_sound wakeup l t code t' rest H F) as [u [U1 [U2 [U3 U4]]]].
  exists u. split; [exact U1|].
  destruct U3 as [[A [B C]]|[A B]]; subst code.
  - split; [split; [discriminate|contradiction]|split; [intros _; exact C|reflexivity]].
  - split; [split; [intros _; exact B|reflexivity]|split; [discriminate|contradiction]].
Qed.

Example C70_patmos_ex :
  sleep_patmos 5000 0 [mkMoment 2500 false; mkMoment 2000 false; mkMoment 600 false; mkMoment 10 false]
    = Returned 0 5110 [] /\
  sleep_patmos 5000 0 [mkMoment 2500 false; mkMoment 100 true; mkMoment 10 false; mkMoment 10 false]
    = Returned (-1) 2610 [mkMoment 10 false].
Proof. vm_compute. split; reflexivity. Qed.

(** Zephyr with the kernel timer. *)
Theorem C70_kernel : sound 0 sleep_kernel /\ ends 0 sleep_kernel.
Proof.
  split.
  - intros wakeup t l code t' rest T F H. unfold sleep_kernel in H.
    destruct (Z.leb_spec (wakeup - t) 0) as [L|L].
    + injection H as H1 H2 H3. subst. exists []. split; [reflexivity|].
      split; [change (span []) with 0; lia|]. split; [left; split; [reflexivity|lia]|].
      intros [|x a] m b E; discriminate.
    + apply semaphore_sound in H; [|exact F]. destruct H as [u [U1 [U2 [U3 U4]]]].
      exists u. split; [exact U1|]. split; [lia|].
      split; [|exact (weaken_prompt 1 u U4 ltac:(lia))].
      destruct U3 as [[A B]|[A B]]; [left; split; [exact A|lia]|right; split; assumption].
  - intros wakeup t l m1 m2 T F H. unfold sleep_kernel.
    destruct (Z.leb_spec (wakeup - t) 0) as [L|L]; [eexists; eexists; eexists; reflexivity|].
    destruct (take_ends (t + (wakeup - t)) (l ++ [m1]) t m2) as [got [t' [rest [R NE]]]].
    + destruct l; discriminate.
    + destruct H as [H|H]; [left; apply noticed_app; exact H|right].
      rewrite span_app. assert (0 <= span [m1]); [|lia].
      apply span_nonneg. unfold forward in *. rewrite Forall_app in F. apply F.
    + rewrite <- app_assoc in R. cbn [app] in R. rewrite R.
      destruct rest as [|m rest]; [contradiction|]. cbn [leave].
      eexists; eexists; eexists; reflexivity.
Qed.

Example C70_kernel_ex :
  sleep_kernel 5000 0 [mkMoment 2500 false; mkMoment 2700 false; mkMoment 10 true] = Returned 0 5210 [] /\
  sleep_kernel 5000 0 [mkMoment 2500 true; mkMoment 10 false] = Returned (-1) 2510 [] /\
  sleep_kernel 5000 5000 [] = Returned 0 5000 [].
Proof. vm_compute. repeat split. Qed.

(** RP2040: the wake-up time is rounded down to a microsecond. *)
Theorem C70_rp2040 : sound 999 sleep_rp2040 /\ ends 0 sleep_rp2040.
Proof.
  assert (D : forall w, w - 999 <= 1000 * (w / 1000) <= w).
  { intros w. pose proof (Z.div_mod w 1000 ltac:(lia)). pose proof (Z.mod_pos_bound w 1000 ltac:(lia)). lia. }
  split.
  - intros wakeup t l code t' rest T F H. unfold sleep_rp2040 in H.
    destruct (Z.ltb_spec wakeup 0) as [L|L].
    + injection H as H1 H2 H3. subst. exists []. split; [reflexivity|].
      split; [change (span []) with 0; lia|]. split; [left; split; [reflexivity|lia]|].
      intros [|x a] m b E; discriminate.
    + apply semaphore_sound in H; [|exact F]. destruct H as [u [U1 [U2 [U3 U4]]]].
      exists u. split; [exact U1|]. split; [lia|].
      split; [|exact (weaken_prompt 1 u U4 ltac:(lia))]. specialize (D wakeup).
      destruct U3 as [[A B]|[A B]]; [left; split; [exact A|lia]|right; split; assumption].
  - intros wakeup t l m1 m2 T F H. unfold sleep_rp2040. specialize (D wakeup).
    destruct (Z.ltb_spec wakeup 0) as [L|L]; [eexists; eexists; eexists; reflexivity|].
    destruct (take_ends (1000 * (wakeup / 1000)) (l ++ [m1]) t m2) as [got [t' [rest [R NE]]]].
    + destruct l; discriminate.
    + destruct H as [H|H]; [left; apply noticed_app; exact H|right].
      rewrite span_app. assert (0 <= span [m1]); [|lia].
      apply span_nonneg. unfold forward in *. rewrite Forall_app in F. apply F.
    + rewrite <- app_assoc in R. cbn [app] in R. rewrite R.
      destruct rest as [|m rest]; [contradiction|]. cbn [leave].
      eexists; eexists; eexists; reflexivity.
Qed.

Example C70_rp2040_ex :
  sleep_rp2040 5000 0 [mkMoment 5200 false; mkMoment 10 false] = Returned 0 5210 [] /\
  sleep_rp2040 5000 0 [mkMoment 2500 true; mkMoment 10 false] = Returned (-1) 2510 [].
Proof. vm_compute. split; reflexivity. Qed.

(** So it may return 0, nothing having been notified, before the wake-up time. *)
Theorem C70_rp2040_early_refuted :
  exists wakeup t l t', 0 <= t /\ forward l /\ ~ noticed l /\
    sleep_rp2040 wakeup t l = Returned 0 t' [] /\ t' < wakeup.
Proof.
  exists 5999, 0, [mkMoment 5000 false; mkMoment 1 false], 5001.
  split; [lia|]. split; [repeat constructor; discriminate|].
  split; [intros [m [[<-|[<-|[]]] N]]; discriminate|]. split; [reflexivity|lia].
Qed.

(** nRF52: also rounded down to a microsecond ... *)
Theorem C70_nrf52 : sound 999 sleep_nrf52.
Proof.
  intros wakeup t l code t' rest T F H. unfold sleep_nrf52 in H.
  destruct (Z.leb_spec (wakeup - clock_ns t) 0) as [L|L].
  - injection H as H1 H2 H3. subst. exists []. pose proof (clock_ns_le t') as C.
    split; [reflexivity|]. split; [change (span []) with 0; lia|].
    split; [left; split; [reflexivity|lia]|]. intros [|x a] m b E; discriminate.
  - destruct (Z.ltb_spec (wakeup - clock_ns t) LF_MIN_SLEEP_NS) as [L2|L2].
    + remember (1000 * ((wakeup + 999) / 1000)) as x. injection H as H1 H2 H3. subst code t' rest.
      pose proof (Z.div_mod (wakeup + 999) 1000 ltac:(lia)).
      pose proof (Z.mod_pos_bound (wakeup + 999) 1000 ltac:(lia)).
      assert (TX : t <= x).
      { subst x. unfold clock_ns, clock_us in *.
        pose proof (Z.div_mod t 1000 ltac:(lia)). pose proof (Z.mod_pos_bound t 1000 ltac:(lia)). lia. }
      exists []. split; [reflexivity|]. split; [change (span []) with 0; lia|].
      split; [left; split; [reflexivity|lia]|]. intros [|y a] m b E; discriminate.
    + apply nrf_sound in H; [|split; [reflexivity|lia]].
      destruct H as [u [U1 [U2 [U3 U4]]]]. exists u. split; [exact U1|]. split; [lia|].
      split; [|exact (weaken_prompt 0 u U4 ltac:(lia))].
      destruct U3 as [[A [B _]]|[A B]]; [left; split; [exact A|]|right; split; assumption].
      unfold clock_us in B.
      pose proof (Z.div_mod t' 1000 ltac:(lia)). pose proof (Z.mod_pos_bound t' 1000 ltac:(lia)).
      pose proof (Z.div_mod wakeup 1000 ltac:(lia)). pose proof (Z.mod_pos_bound wakeup 1000 ltac:(lia)).
      lia.
Qed.

(** ... and it ends when an event is notified or the wake-up time comes, if that is at most
    2^32 - 1 microseconds away. *)
Theorem C70_nrf52_ends_partial : forall wakeup t l m1 m2,
  0 <= t -> forward (l ++ [m1; m2]) -> wakeup - clock_ns t <= LF_MAX_SLEEP_NS ->
  noticed l \/ wakeup <= t + span l ->
  exists code t' rest, sleep_nrf52 wakeup t (l ++ [m1; m2]) = Returned code t' rest.
Proof.
  intros wakeup t l m1 m2 T F M H. unfold sleep_nrf52.
  destruct (Z.leb_spec (wakeup - clock_ns t) 0) as [L|L]; [eexists; eexists; eexists; reflexivity|].
  destruct (Z.ltb_spec (wakeup - clock_ns t) LF_MIN_SLEEP_NS) as [L2|L2];
    [eexists; eexists; eexists; reflexivity|].
  set (ll := l ++ [m1; m2]) in *.
  assert (N : ll <> []) by (unfold ll; destruct l; discriminate).
  destruct (nrf_last_ends wakeup ll t (wakeup - clock_ns t) F) as [K|K]; [|contradiction].
  assert (H' : noticed ll \/ wakeup <= t + span ll).
  { unfold ll. destruct H as [H|H]; [left; apply noticed_app; exact H|right].
    rewrite span_app. assert (0 <= span [m1; m2]); [|lia].
    apply span_nonneg. unfold forward, ll in F. rewrite Forall_app in F. apply F. }
  destruct (K wakeup H' (Z.le_refl _)) as [code [t' [rest R]]].
  exists code, t', rest. rewrite <- R. destruct ll as [|m r]; [contradiction|].
  cbn [nrf_loop].
  destruct (Z.ltb_spec LF_MAX_SLEEP_NS (wakeup - clock_ns t)) as [X|X]; [lia|].
  rewrite next_match_exact; [reflexivity|].
  unfold clock_ns, LF_MIN_SLEEP_NS, LF_MAX_SLEEP_NS, two32 in *.
  pose proof (Z.div_mod wakeup 1000 ltac:(lia)). pose proof (Z.mod_pos_bound wakeup 1000 ltac:(lia)).
  lia.
Qed.

Example C70_nrf52_ex :
  sleep_nrf52 5000000 0 [mkMoment 2000000 false; mkMoment 3000100 false] = Returned 0 5000100 [] /\
  sleep_nrf52 5000000 0 [mkMoment 2000000 false; mkMoment 100 true] = Returned (-1) 2000100 [] /\
  sleep_nrf52 3000 0 [] = Returned 0 3000 [] /\
  5000000 - clock_ns 0 <= LF_MAX_SLEEP_NS.
Proof. vm_compute. repeat split; discriminate. Qed.

(** For longer sleeps it may oversleep by 71 minutes: after a sleep of the maximal length
    the last one is started a little late, when the target value has just gone by, and the
    counter has to come round again. *)
Theorem C70_nrf52_oversleep_refuted :
  exists wakeup t l, 0 <= t /\ forward l /\
    wakeup + 4200 * 1000000000 <= t + span l /\ sleep_nrf52 wakeup t l = Asleep.
Proof.
  exists 4294967296000, 0, [mkMoment 4294967297000 false; mkMoment 4294000000000 false].
  split; [lia|]. split; [repeat constructor; discriminate|].
  split; [vm_compute; discriminate|vm_compute; reflexivity].
Qed.

(** Zephyr with a hardware counter: the sleep ends early by the runtime overhead of the
    board (by design) and less than a microsecond; with a 32-bit counter it ends. *)
Theorem C70_counter : forall b,
  board_ok b -> sound (1000 * runtime_overhead_us b + 999) (sleep_counter b).
Proof.
  intros b B wakeup t l code t' rest T F H.
  apply (counter_sound b wakeup l t None code t' rest B F) in H.
  destruct H as [u [U1 [U2 [U3 U4]]]]. exists u. split; [exact U1|]. split; [exact U2|].
  split; [|exact (weaken_prompt 0 u U4 ltac:(lia))].
  destruct U3 as [[A [D _]]|[A D]]; [left; split; [exact A|lia]|right; split; assumption].
Qed.

Theorem C70_counter_ends_partial : forall b,
  board_ok b -> full_counter b -> ends 2000 (sleep_counter b).
Proof.
  intros b B C wakeup t l m1 m2 T F H. unfold sleep_counter.
  replace (l ++ [m1; m2]) with ((l ++ [m1]) ++ [m2]) by (rewrite <- app_assoc; reflexivity).
  apply counter_ends; [exact B|exact C|exact F|exact Logic.I|].
  destruct H as [H|H]; [left; apply noticed_app; exact H|right].
  rewrite span_app. assert (0 <= span [m1]); [|lia].
  apply span_nonneg. unfold forward in *. rewrite Forall_app in F. apply F.
Qed.

(** The boards with an nRF chip, whose timer has 32 bits at 1 MHz. *)
Definition nrf_board : board := mkBoard 100 10 19 4294967295 1 4294967295.

Example C70_counter_ex :
  board_ok nrf_board /\ full_counter nrf_board /\
  sleep_counter nrf_board 5000000 0 [mkMoment 4900500 false] = Returned 0 4981500 [] /\
  sleep_counter nrf_board 5000000 0 [mkMoment 2000000 false; mkMoment 100 true] = Returned (-1) 2000100 [].
Proof.
  split; [unfold board_ok; cbn; lia|]. split; [split; reflexivity|].
  vm_compute. split; reflexivity.
Qed.

(** The tolerance is used: 18 microseconds before the time the sleep is over. *)
Theorem C70_counter_early_refuted :
  exists wakeup t l t', ~ noticed l /\
    sleep_counter nrf_board wakeup t l = Returned 0 t' [] /\ t' + 18000 <= wakeup.
Proof.
  exists 5000000, 0, [mkMoment 4900500 false], 4981500.
  split; [intros [m [[<-|[]] N]]; discriminate|]. split; [vm_compute; reflexivity|lia].
Qed.

(** With a counter of fewer bits a sleep of an epoch or more asks for more ticks than the
    counter has, and the program exits: here 16 bits at 1 MHz and a sleep of 66 ms. *)
Theorem C70_counter_alarm_refuted :
  exists b, board_ok b /\ top_value b = 65535 /\ epoch_us b = 65535 /\
    forall l, sleep_counter b 66000000 0 l = Failed.
Proof.
  exists (mkBoard 0 10 0 65535 1 65535). split; [unfold board_ok; cbn; lia|].
  split; [reflexivity|split; [reflexivity|]]. intros [|m l]; vm_compute; reflexivity.
Qed.

(** FlexPRET clears the flag after it has enabled interrupts: an event notified in between
    does not end the sleep, which goes on to the wake-up time (or forever). *)
Theorem C70_flexpret_refuted :
  exists wakeup t l t', 0 <= t /\ forward l /\
    l = [mkMoment 10 true; mkMoment 3600000000000 false; mkMoment 5 false] /\
    sleep_flexpret wakeup t l = Returned 0 t' [] /\ ~ sound 0 sleep_flexpret.
Proof.
  exists 3000000000000, 0, [mkMoment 10 true; mkMoment 3600000000000 false; mkMoment 5 false], 3600000000015.
  split; [lia|]. split; [repeat constructor; discriminate|]. split; [reflexivity|].
  split; [vm_compute; reflexivity|].
  intros S. specialize (S 3000000000000 0
    [mkMoment 10 true; mkMoment 3600000000000 false; mkMoment 5 false] 0 3600000000015 [] ltac:(lia)).
  destruct S as [u [U1 [_ [_ U2]]]].
  - repeat constructor; discriminate.
  - vm_compute; reflexivity.
  - rewrite app_nil_r in U1. subst u.
    specialize (U2 [] (mkMoment 10 true) [mkMoment 3600000000000 false; mkMoment 5 false] eq_refl eq_refl).
    cbn in U2. lia.
Qed.

Print Assumptions C70_patmos.
Print Assumptions C70_patmos_exact.
Print Assumptions C70_kernel.
Print Assumptions C70_rp2040.
Print Assumptions C70_rp2040_early_refuted.
Print Assumptions C70_nrf52.
Print Assumptions C70_nrf52_ends_partial.
Print Assumptions C70_nrf52_oversleep_refuted.
Print Assumptions C70_counter.
Print Assumptions C70_counter_ends_partial.
Print Assumptions C70_counter_early_refuted.
Print Assumptions C70_counter_alarm_refuted.
Print Assumptions C70_flexpret_refuted.
