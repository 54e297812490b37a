(** Clock synchronization: property C51. *)
From Verif Require Import Base Tag TagSpec TagProofs ClockSync ClockSyncSpec.
Open Scope Z_scope.

Ltac fits := unfold c_sub64, c_add64, in_int64b, LLONG_MIN, LLONG_MAX, moderate in *;
  repeat match goal with |- context [if ?b then _ else _] =>
    lazymatch b with context [if _ then _ else _] => fail | _ => replace b with true by lia end end.

Lemma estimate_exchange e s s' : exchange_ok e ->
  handle_t1 s (ex_t1 e) (ex_t2 e) (ex_t3 e) = Ok s' ->
  round_trip s' (ex_t4 e) = Ok (d1 e + d2 e) /\
  estimated_error s' (ex_t4 e) = Ok (Z.quot (d1 e + d2 e) 2 - d1 e + behind e).
Proof.
  intros (A & B & C & D & F) H. unfold handle_t1, bind in H.
  destruct (c_sub64 (ex_t3 e) (ex_t2 e)) as [d|] eqn:K; [|discriminate]. injection H as <-.
  assert (d = local e). { unfold c_sub64, c_add64 in K. destruct (in_int64b _); [|discriminate]. injection K as <-. unfold ex_t3. lia. }
  subst d. unfold moderate in A.
  assert (R : round_trip (mkSync (ex_t1 e) (ex_t2 e) (local e) (received s) (history s) (delay_max s) (index s) (error_bound s) (offset s) (bias s)) (ex_t4 e) = Ok (d1 e + d2 e)).
  { unfold round_trip, bind, c_sub64, c_add64, in_int64b, LLONG_MIN, LLONG_MAX, ex_t1, ex_t4. cbn [snap1 local_delay].
    match goal with |- context [if ?b then Ok ?x else UB] => replace b with true by lia end.
    match goal with |- context [if ?b then Ok ?x else UB] => replace b with true by lia end. f_equal. lia. }
  split; [exact R|]. unfold estimated_error. rewrite R. cbn [bind snap1 snap2].
  assert (0 <= Z.quot (d1 e + d2 e) 2 <= d1 e + d2 e). { rewrite Z.quot_div_nonneg by lia. split; [apply Z.div_pos; lia|apply Z.div_le_upper_bound; lia]. }
  unfold bind, c_sub64, c_add64, in_int64b, LLONG_MIN, LLONG_MAX, ex_t1, ex_t2.
  match goal with |- context [if ?b then Ok ?x else UB] => replace b with true by lia end.
  match goal with |- context [if ?b then Ok ?x else UB] => replace b with true by lia end. f_equal. lia.
Qed.

(** C51: the error estimated from one exchange differs from the amount the
    federate's clock is really behind by at most half the difference of the two
    message delays, plus rounding; it is exact if the delays are equal. *)
Theorem C51_estimate e s s' : exchange_ok e ->
  handle_t1 s (ex_t1 e) (ex_t2 e) (ex_t3 e) = Ok s' ->
  exists est, estimated_error s' (ex_t4 e) = Ok est /\
    2 * Z.abs (est - behind e) <= Z.abs (d1 e - d2 e) + 1 /\
    (d1 e = d2 e -> est = behind e).
Proof.
  intros He H. pose proof He as (A & B & C & D & F). destruct (estimate_exchange e s s' He H) as [_ E].
  eexists. split; [exact E|].
  assert (Q : d1 e + d2 e = 2 * Z.quot (d1 e + d2 e) 2 + Z.rem (d1 e + d2 e) 2) by (apply Z.quot_rem'; lia).
  assert (0 <= Z.rem (d1 e + d2 e) 2 < 2) by (apply Z.rem_bound_pos; lia).
  split; [lia|]. intros Heq. lia.
Qed.

(** C51: the first message of an exchange never fails. *)
Theorem C51_t1_defined e s : exchange_ok e -> handle_t1 s (ex_t1 e) (ex_t2 e) (ex_t3 e) <> UB.
Proof.
  intros (A & B & C & D & F). unfold handle_t1, bind, c_sub64, c_add64, in_int64b, LLONG_MIN, LLONG_MAX, ex_t3, moderate in *.
  match goal with |- context [if ?b then Ok ?x else UB] => replace b with true by lia end. discriminate.
Qed.

(** ** The window of exchanges. *)
Definition window_ok (s : sync) : Prop := 0 <= index s <= 9 /\ index s <= received s.

Lemma step_window s o s' : window_ok s -> step s o = Ok s' -> window_ok s'.
Proof.
  intros [W1 W2] E. destruct o as [t1 t2 t3|t4 r4 p n]; cbn [step] in E.
  - unfold handle_t1, bind in E. destruct (c_sub64 t3 t2); [|discriminate]. injection E as <-. now split.
  - unfold handle_t4 in E. cbn zeta in E. unfold bind in E.
    destruct (round_trip _ t4) as [rtt|]; [|discriminate]. destruct (estimated_error _ t4) as [err|]; [|discriminate].
    destruct (filter_probe p t4 r4 err) as [[[|]|a]|] eqn:F; try discriminate.
    + injection E as <-. unfold window_ok. cbn. lia.
    + injection E as <-. unfold window_ok. cbn. lia.
    + destruct (update_stat _ rtt err) as [s1|] eqn:U; [|discriminate].
      destruct (c_add64 (history s1) _) as [h|]; [|discriminate].
      unfold update_stat in U. destruct ((0 <=? _) && _); [|discriminate]. injection U as <-.
      cbn [received set_history set_received index] in E. unfold EXCHANGES in E.
      destruct (Z.leb_spec 10 (received s + 1)).
      * destruct n; injection E as <-; unfold window_ok; cbn; lia.
      * injection E as <-. unfold window_ok. cbn. lia.
Qed.
Lemma run_window l : forall s s', window_ok s -> run s l = Ok s' -> window_ok s'.
Proof.
  induction l as [|o l IH]; intros s s' W E; cbn [run] in E; [now injection E as <-|].
  unfold bind in E. destruct (step s o) as [s1|] eqn:S1; [|discriminate]. eapply IH; [eapply step_window; eassumption|exact E].
Qed.

(** C51: whatever messages are received, lost or rejected, the window of samples
    is never overrun: the next sample always has a place in the array. *)
Theorem C51_window b l s : run (sync0 b) l = Ok s ->
  forall rtt err, update_stat s rtt err <> UB.
Proof.
  intros E rtt err. assert (W0 : window_ok (sync0 b)) by (unfold window_ok; cbn; lia). destruct (run_window l _ s W0 E) as [W _].
  unfold update_stat, EXCHANGES. replace ((0 <=? index s) && (index s <? 10)) with true by lia. discriminate.
Qed.

(** C51: an exchange whose coded probe was delayed or advanced on its way by the
    guard band (100 us) or more changes nothing. *)
Theorem C51_guard s t4 r4 t5 r5 noisy s' : handle_t4 s t4 r4 (Probe t5 r5) noisy = Ok s' ->
  100000 <= Z.abs ((r5 - r4) - (t5 - t4)) -> s' = s.
Proof.
  unfold handle_t4, filter_probe. cbn zeta. unfold bind. intros E G.
  destruct (round_trip _ t4) as [rtt|]; [|discriminate]. destruct (estimated_error _ t4) as [err|]; [|discriminate].
  unfold c_sub64, c_add64 in E. destruct (in_int64b (r5 + - r4)); [|discriminate]. destruct (in_int64b (t5 + - t4)); [|discriminate].
  destruct (in_int64b _); [|discriminate].
  replace (GUARD_BAND <=? Z.abs (r5 + - r4 + - (t5 + - t4))) with true in E by (unfold GUARD_BAND; lia).
  injection E as <-. unfold set_received. destruct s; cbn. f_equal. lia.
Qed.
(** C51: any other exchange over UDP counts: a tenth of a tenth of its estimate is
    added to the correction of the window, and the tenth exchange applies the
    correction and begins a new window - unless the samples are too noisy. *)
Theorem C51_counted s t4 r4 t5 r5 noisy s' est : handle_t4 s t4 r4 (Probe t5 r5) noisy = Ok s' ->
  Z.abs ((r5 - r4) - (t5 - t4)) < 100000 -> estimated_error s t4 = Ok est ->
  let total := history s + Z.quot (Z.quot est 10) 10 in
  if received s <? 9 then received s' = received s + 1 /\ index s' = index s + 1 /\ history s' = total /\ offset s' = offset s
  else received s' = 0 /\ index s' = 0 /\ history s' = 0 /\ offset s' = if noisy then offset s else wrap64 (offset s + total).
Proof.
  unfold handle_t4, filter_probe. cbn zeta. unfold bind. intros E G Ee.
  change (estimated_error (set_received s (received s + 1)) t4) with (estimated_error s t4) in E. rewrite Ee in E.
  destruct (round_trip _ t4) as [rtt|]; [|discriminate].
  unfold c_sub64 in E. unfold c_add64 at 1 2 3 in E. destruct (in_int64b (r5 + - r4)); [|discriminate]. destruct (in_int64b (t5 + - t4)); [|discriminate].
  destruct (in_int64b (r5 + - r4 + - (t5 + - t4))); [|discriminate].
  replace (GUARD_BAND <=? Z.abs (r5 + - r4 + - (t5 + - t4))) with false in E by (unfold GUARD_BAND; lia).
  unfold update_stat in E. destruct (_ && _) in E; [|discriminate]. cbn [history set_received] in E. unfold c_add64 in E.
  destruct (in_int64b _) in E; [|discriminate]. cbn [received set_history set_received] in E. unfold EXCHANGES at 1 in E.
  destruct (Z.ltb_spec (received s) 9) as [L|L].
  - replace (10 <=? received s + 1) with false in E by lia. injection E as <-. cbn. auto.
  - replace (10 <=? received s + 1) with true in E by lia. destruct noisy; injection E as <-; cbn; auto.
Qed.

Example C51_guard_ex : let s := mkSync 1000 2000 10 4 7 0 4 0 0 0 in
  handle_t4 s 1210 3000 (Probe 1300 103090) false = Ok s /\
  (let s' := handle_t4 s 1210 3000 (Probe 1300 3100) false in
   match s' with Ok s' => (received s', index s', history s') = (5, 5, 7 + -9) | UB => False end).
Proof. vm_compute. auto. Qed.

(** C51: adding the offset to a time and subtracting it again gives the time
    back, unless the time or the sum is at the ends of the range. *)
Theorem C51_offset_roundtrip s t u :
  in_int64 t -> add_offset s t = Ok u -> Z.abs (offset s + bias s) < FOREVER ->
  t = NEVER \/ t = FOREVER \/ NEVER < t + (offset s + bias s) < FOREVER ->
  subtract_offset s u = Ok t.
Proof.
  intros Ht E Ho Hc. unfold add_offset, subtract_offset, bind in *.
  destruct (c_add64 (offset s) (bias s)) as [o|] eqn:O; [|discriminate].
  assert (o = offset s + bias s). { unfold c_add64 in O. destruct (in_int64b _); [|discriminate]. now injection O as <-. }
  subst o. set (o := offset s + bias s) in *.
  assert (N : c_sub64 0 o = Ok (- o)).
  { unfold c_sub64, c_add64. replace (in_int64b (0 + - o)) with true; [f_equal; lia|]. unfold in_int64b, NEVER, FOREVER, LLONG_MIN, LLONG_MAX in *. lia. }
  rewrite N. clear N O. unfold time_add, c_add64, bind in *.
  unfold NEVER, FOREVER, in_int64, in_int64b, LLONG_MIN, LLONG_MAX in *.
  destruct (Z.eqb_spec t (-9223372036854775808)) as [->|T1].
  { cbn [orb] in E. injection E as <-. reflexivity. }
  destruct (Z.eqb_spec o (-9223372036854775808)); [lia|]. cbn [orb] in E.
  destruct (Z.eqb_spec t 9223372036854775807) as [->|T2].
  { cbn [orb] in E. injection E as <-. replace (- o =? -9223372036854775808) with false by lia. reflexivity. }
  destruct (Z.eqb_spec o 9223372036854775807); [lia|]. cbn [orb] in E.
  assert (K : ((-9223372036854775808 <=? t + o) && (t + o <=? 9223372036854775807)) = true) by lia. rewrite K in E.
  replace ((t + o <? t) && (0 <? o)) with false in E by lia. replace ((t <? t + o) && (o <? 0)) with false in E by lia.
  injection E as <-.
  replace (t + o =? -9223372036854775808) with false by lia. replace (- o =? -9223372036854775808) with false by lia.
  replace (t + o =? 9223372036854775807) with false by lia. replace (- o =? 9223372036854775807) with false by lia. cbn [orb].
  replace (t + o + - o) with t by lia.
  replace ((-9223372036854775808 <=? t) && (t <=? 9223372036854775807)) with true by lia.
  replace ((t <? t + o) && (0 <? - o)) with false by lia. replace ((t + o <? t) && (- o <? 0)) with false by lia. reflexivity.
Qed.

(** ** Initial synchronization: ten exchanges over TCP. *)
Definition rounds (es : list exchange) : list op :=
  flat_map (fun e => [OT1 (ex_t1 e) (ex_t2 e) (ex_t3 e); OT4 (ex_t4 e) (ex_t2 e) Tcp false]) es.

Lemma one_round e s : exchange_ok e -> d1 e = d2 e -> window_ok s -> received s = index s -> Z.abs (history s) <= 2 ^ 62 ->
  exists s', run s (rounds [e]) = Ok s' /\ bias s' = bias s /\
   if 10 <=? received s + 1
   then received s' = 0 /\ index s' = 0 /\ history s' = 0 /\ offset s' = wrap64 (offset s + (history s + Z.quot (behind e) 10))
   else received s' = received s + 1 /\ index s' = index s + 1 /\ history s' = history s + Z.quot (behind e) 10 /\ offset s' = offset s.
Proof.
  intros He Hd [W1 W2] Hr Hh. pose proof He as (A & B & C & D & F).
  cbn [rounds flat_map app run step].
  destruct (handle_t1 s (ex_t1 e) (ex_t2 e) (ex_t3 e)) as [s1|] eqn:T1; [|now apply C51_t1_defined in T1].
  cbn [bind].
  assert (S1 : received s1 = received s /\ index s1 = index s /\ history s1 = history s /\ offset s1 = offset s /\ bias s1 = bias s).
  { unfold handle_t1, bind in T1. destruct (c_sub64 _ _); [|discriminate]. injection T1 as <-. cbn. auto. }
  destruct S1 as (R1 & X1 & H1 & O1 & B1).
  destruct (estimate_exchange e s s1 He T1) as [RT EE].
  assert (Q : Z.quot (d1 e + d2 e) 2 = d1 e). { rewrite <- Hd. replace (d1 e + d1 e) with (d1 e * 2) by lia. apply Z.quot_mul. lia. }
  assert (EB : Z.abs (Z.quot (behind e) 10) <= 2 ^ 58).
  { pose proof (Z.quot_abs (behind e) 10 ltac:(lia)) as QA. change (Z.abs 10) with 10 in QA. rewrite <- QA. rewrite Z.quot_div_nonneg by lia. apply Z.div_le_upper_bound; lia. }
  rewrite Q in EE. unfold handle_t4. cbn zeta.
  change (round_trip (set_received s1 (received s1 + 1)) (ex_t4 e)) with (round_trip s1 (ex_t4 e)).
  change (estimated_error (set_received s1 (received s1 + 1)) (ex_t4 e)) with (estimated_error s1 (ex_t4 e)).
  rewrite RT, EE. cbn [bind filter_probe]. replace (d1 e - d1 e + behind e) with (behind e) by lia.
  unfold update_stat. cbn [index set_received received history offset bias]. rewrite R1, X1, H1, O1, B1.
  replace ((0 <=? index s) && (index s <? EXCHANGES)) with true by (unfold EXCHANGES; lia).
  cbn [bind history received set_history]. unfold EXCHANGES, c_add64.
  assert (in_int64b (history s + Z.quot (behind e) 10) = true) as -> by (unfold in_int64b, LLONG_MIN, LLONG_MAX; lia).
  cbn [bind].
  destruct (10 <=? received s + 1); cbn [bind]; eexists; (split; [reflexivity|]); cbn; auto 6.
Qed.

(** C51: ten initial exchanges with symmetric delays, in which the clock is
    behind by the same amount, correct the clock by that amount up to nine
    nanoseconds (each exchange contributes a tenth, rounded towards zero). *)
Theorem C51_initial es s0 c :
  length es = 10%nat -> Forall (fun e => exchange_ok e /\ d1 e = d2 e /\ behind e = c) es ->
  run (sync0 s0) (rounds es) <> UB /\
  forall s, run (sync0 s0) (rounds es) = Ok s ->
    offset s = 10 * Z.quot c 10 /\ Z.abs (offset s - c) <= 9 /\ received s = 0 /\ index s = 0 /\ history s = 0.
Proof.
  intros Hl Hf.
  assert (G : forall k es s, (length es + k = 10)%nat -> Forall (fun e => exchange_ok e /\ d1 e = d2 e /\ behind e = c) es ->
     received s = Z.of_nat k -> index s = Z.of_nat k -> history s = Z.of_nat k * Z.quot c 10 -> offset s = 0 -> (k < 10)%nat ->
     exists s', run s (rounds es) = Ok s' /\ received s' = 0 /\ index s' = 0 /\ history s' = 0 /\ offset s' = wrap64 (10 * Z.quot c 10)).
  { intros k es'. revert k. induction es' as [|e es' IH]; intros k s L F R X H O K; [cbn in L; lia|].
    inversion F as [|? ? (He & Hd & Hc) F']; subst x l.
    assert (Z.abs (Z.quot c 10) <= 2 ^ 58).
    { destruct He as (_ & _ & _ & _ & Hb). rewrite Hc in Hb. pose proof (Z.quot_abs c 10 ltac:(lia)) as QA. change (Z.abs 10) with 10 in QA. rewrite <- QA. rewrite Z.quot_div_nonneg by lia. apply Z.div_le_upper_bound; lia. }
    destruct (one_round e s He Hd) as (s1 & E1 & _ & P1); [unfold window_ok; lia|lia|rewrite H; lia|].
    assert (Split : run s (rounds (e :: es')) = bind (run s (rounds [e])) (fun x => run x (rounds es'))).
    { cbn [rounds flat_map app run]. unfold bind. destruct (step s _); [|reflexivity]. destruct (step a _); reflexivity. }
    rewrite Split, E1. cbn [bind]. rewrite Hc in P1.
    destruct (10 <=? received s + 1) eqn:T.
    - assert (es' = []). { destruct es'; [reflexivity|]. cbn [length] in L. lia. }
      subst es'. destruct P1 as (P1 & P2 & P3 & P4). exists s1. split; [reflexivity|]. split; [exact P1|]. split; [exact P2|]. split; [exact P3|].
      rewrite P4, O, H. f_equal. cbn [length] in L. replace k with 9%nat by lia. lia.
    - destruct P1 as (P1 & P2 & P3 & P4). apply (IH (S k)); try assumption; try (cbn [length] in L; lia). }
  destruct (G 0%nat es (sync0 s0)) as (s & E & A & B & C & D); try reflexivity; try assumption; try lia.
  split; [congruence|]. intros s' E'. rewrite E in E'. injection E' as <-.
  assert (Cb : - 2 ^ 58 < c < 2 ^ 58). { destruct es as [|e es]; [discriminate|]. inversion Hf as [|? ? (He & _ & <-) _]. apply He. }
  assert (Q : c = 10 * Z.quot c 10 + Z.rem c 10) by (apply Z.quot_rem'; lia).
  assert (Z.abs (Z.rem c 10) < 10). { pose proof (Z.rem_bound_abs c 10 ltac:(lia)). lia. }
  assert (W : wrap64 (10 * Z.quot c 10) = 10 * Z.quot c 10).
  { unfold wrap64, two64. rewrite Z.mod_small by lia. lia. }
  rewrite D, W. repeat split; try assumption. lia.
Qed.

Example C51_ex : let e := mkExchange 1000000 500 700 40 12345 in
  exchange_ok e /\ exists s, run (sync0 0) [OT1 (ex_t1 e) (ex_t2 e) (ex_t3 e)] = Ok s /\
  estimated_error s (ex_t4 e) = Ok 12445 /\
  (let e := mkExchange 1000000 500 500 40 12345 in
   option_map offset (match run (sync0 0) (rounds (repeat e 10)) with Ok s => Some s | UB => None end) = Some 12340).
Proof.
  cbn zeta. split; [unfold exchange_ok, moderate; cbn; lia|]. eexists. split; [reflexivity|]. split; [reflexivity|]. vm_compute. reflexivity.
Qed.

(** The bound kept on the clock error (clock-sync.h:104) only covers federates
    whose clock is behind: when it is ahead the bound stays at zero. *)
Theorem C51_error_bound_refuted : exists e s,
  exchange_ok e /\ d1 e = d2 e /\ run (sync0 0) (rounds [e]) = Ok s /\ error_bound s < Z.abs (behind e).
Proof.
  exists (mkExchange 1000000 500 500 40 (-12345)). eexists. split; [unfold exchange_ok, moderate; cbn; lia|].
  split; [reflexivity|]. split; [vm_compute; reflexivity|]. vm_compute. reflexivity.
Qed.

(** A lost probe counts in the window although it contributes nothing: ten
    exchanges that all estimate 10000 ns correct the clock by 1000 ns (one tenth,
    as intended); if one of the ten probes is lost they correct it by 900 ns,
    and the ten good exchanges are not awaited. *)
Definition udp_rounds (e : exchange) (p : list probe) : list op :=
  flat_map (fun q => [OT1 (ex_t1 e) (ex_t2 e) (ex_t3 e); OT4 (ex_t4 e) (ex_t2 e) q false]) p.
Theorem C51_lost_probe_refuted : exists e good s1 s2,
  exchange_ok e /\ behind e = 10000 /\ d1 e = d2 e /\
  run (sync0 0) (udp_rounds e (repeat good 10)) = Ok s1 /\ offset s1 = 1000 /\
  run (sync0 0) (udp_rounds e (Lost :: repeat good 9)) = Ok s2 /\ offset s2 = 900 /\ received s2 = 0.
Proof.
  set (e := mkExchange 1000000 500 500 40 10000).
  exists e, (Probe (ex_t4 e + 10) (ex_t2 e + 10)). do 2 eexists.
  split; [unfold exchange_ok, moderate; cbn; lia|]. split; [reflexivity|]. split; [reflexivity|].
  split; [vm_compute; reflexivity|]. split; [reflexivity|]. split; [vm_compute; reflexivity|]. split; reflexivity.
Qed.

Print Assumptions C51_estimate.
Print Assumptions C51_t1_defined.
Print Assumptions C51_window.
Print Assumptions C51_offset_roundtrip.
Print Assumptions C51_initial.
Print Assumptions C51_error_bound_refuted.
Print Assumptions C51_lost_probe_refuted.
Print Assumptions C51_guard.
Print Assumptions C51_counted.
