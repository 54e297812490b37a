(** Deadlines: properties C33 and C55. *)
From Verif Require Import Base Deadline DeadlineSpec.
Open Scope Z_scope.

Lemma ok_inj (a b : Z) : Ok a = Ok b -> a = b.
Proof. now intros [= ->]. Qed.
Lemma max48 : Z.shiftr (two64 - 1) 16 = 281474976710655.
Proof. reflexivity. Qed.
Lemma lor_level d l : 0 <= l < 65536 -> Z.lor (Z.shiftl d 16) l = d * 65536 + l.
Proof.
  intros H. assert (L : Z.land (Z.shiftl d 16) l = 0).
  { apply Z.bits_inj'. intros n Hn. rewrite Z.land_spec, Z.bits_0.
    destruct (Z.lt_ge_cases n 16) as [K|K].
    - rewrite Z.shiftl_spec_low by lia. reflexivity.
    - destruct (Z.eq_dec l 0) as [->|]; [now rewrite Z.bits_0, andb_false_r|].
      rewrite (Z.bits_above_log2 l n); [now rewrite andb_false_r|lia|].
      apply Z.lt_le_trans with 16; [apply Z.log2_lt_pow2; cbn; lia|lia]. }
  rewrite <- Z.lxor_lor by exact L. rewrite <- Z.add_nocarry_lxor by exact L.
  rewrite Z.shiftl_mul_pow2 by lia. reflexivity.
Qed.

Lemma combine_wrap_value d l : 0 <= d -> 0 <= l < 65536 -> combine_wrap d l = capped d * 65536 + l.
Proof.
  intros Hd Hl. unfold combine_wrap, capped. rewrite max48.
  destruct (Z.ltb_spec 281474976710655 d) as [K|K].
  - rewrite lor_level by assumption. rewrite Z.min_r by lia. reflexivity.
  - rewrite Z.min_l by lia. rewrite Z.shiftl_mul_pow2 by lia. change (2 ^ 16) with 65536.
    unfold wrap64. set (w := (d * 65536 + 9223372036854775808) mod two64 - 9223372036854775808).
    assert (W : w = d * 65536 \/ w = d * 65536 - two64).
    { unfold w. destruct (Z.lt_ge_cases d 140737488355328) as [Q|Q].
      - left. rewrite Z.mod_small; [lia|]. unfold two64. lia.
      - right. replace (d * 65536 + 9223372036854775808) with ((d * 65536 + 9223372036854775808 - two64) + 1 * two64) by lia.
        rewrite Z.mod_add by (unfold two64; lia). rewrite Z.mod_small by (unfold two64; lia). lia. }
    assert (E : exists q, w = Z.shiftl q 16 /\ (q = d \/ q = d - 281474976710656)).
    { destruct W as [W|W]; rewrite W.
      - exists d. rewrite Z.shiftl_mul_pow2 by lia. split; [reflexivity|now left].
      - exists (d - 281474976710656). rewrite Z.shiftl_mul_pow2 by lia. split; [unfold two64; lia|now right]. }
    destruct E as (q & -> & [->| ->]); rewrite lor_level by assumption.
    + apply Z.mod_small. unfold two64. lia.
    + replace ((d - 281474976710656) * 65536 + l) with (d * 65536 + l + (-1) * two64) by (unfold two64; lia).
      rewrite Z.mod_add by (unfold two64; lia). apply Z.mod_small. unfold two64. lia.
Qed.

(** C33: for every non-negative deadline and every 16-bit level the combined
    index orders reactions first by deadline (saturated), then by level, and the
    level can be read back (two's-complement reading of the shift). *)
Theorem C33_order d1 l1 d2 l2 :
  0 <= d1 -> 0 <= d2 -> 0 <= l1 < 65536 -> 0 <= l2 < 65536 ->
  combine_wrap d1 l1 < combine_wrap d2 l2 <-> before d1 l1 d2 l2.
Proof. intros. rewrite !combine_wrap_value by assumption. unfold before. lia. Qed.

Theorem C33_level d l : 0 <= d -> 0 <= l < 65536 ->
  level_of (combine_wrap d l) = l /\ 0 <= combine_wrap d l < two64.
Proof.
  intros Hd Hl. rewrite combine_wrap_value by assumption. split.
  - unfold level_of. change 65535 with (Z.ones 16). rewrite Z.land_ones by lia. change (2 ^ 16) with 65536.
    rewrite Z.add_comm, Z.mod_add by lia. now apply Z.mod_small.
  - unfold capped, two64. lia.
Qed.

(** C33 in ISO C: the result is the same where it is defined, and it is undefined
    exactly for deadlines from 2^47 to 2^48 - 1 nanoseconds (39 hours to three
    days). *)
Theorem C33_iso_c d l : 0 <= d -> 0 <= l < 65536 ->
  (forall r, combine d l = Ok r -> r = combine_wrap d l) /\
  (combine d l = UB <-> 140737488355328 <= d <= 281474976710655).
Proof.
  intros Hd Hl. rewrite combine_wrap_value by assumption. unfold combine, capped. rewrite max48.
  destruct (Z.ltb_spec 281474976710655 d) as [K|K].
  - split; [|split; [discriminate|lia]]. intros r Hr. apply ok_inj in Hr. rewrite <- Hr. rewrite lor_level by assumption. rewrite Z.min_r by lia. reflexivity.
  - replace (d <? 0) with false by lia. cbn [orb]. rewrite Z.shiftl_mul_pow2 by lia. change (2 ^ 16) with 65536.
    unfold in_int64b, LLONG_MIN, LLONG_MAX.
    destruct (Z.leb_spec (-9223372036854775808) (d * 65536)); [|lia].
    destruct (Z.leb_spec (d * 65536) 9223372036854775807); cbn [andb negb].
    + split; [|split; [discriminate|lia]]. intros r Hr. apply ok_inj in Hr. rewrite <- Hr. replace (d * 65536) with (Z.shiftl d 16) by (rewrite Z.shiftl_mul_pow2 by lia; reflexivity).
      rewrite lor_level by assumption. rewrite Z.min_l by lia. reflexivity.
    + split; [discriminate|]. split; [lia|reflexivity].
Qed.

Theorem C33_defined_refuted : exists d l, 0 <= d /\ 0 <= l < 65536 /\ combine d l = UB.
Proof. exists 140737488355328, 3. repeat split; lia. Qed.

Example C33_ex : combine 1000 7 = Ok 65536007 /\ level_of 65536007 = 7 /\
  combine 9223372036854775807 65535 = Ok (two64 - 1) /\ before 1000 7 1001 2.
Proof. split; [reflexivity|]. split; [reflexivity|]. split; [reflexivity|]. left. reflexivity. Qed.

(** ** Deadlines of executed reactions *)
Lemma missed_spec now phys r m : missed now phys r = Ok m -> (m = false <-> in_time now phys r).
Proof.
  unfold missed, in_time, c_add64, bind. intros H.
  destruct (Z.leb_spec 0 (r_deadline r)); [|injection H as <-; split; auto].
  destruct (Z.eqb_spec (r_deadline r) 0); [injection H as <-; split; [discriminate|lia]|].
  destruct (in_int64b (now + r_deadline r)); [|discriminate]. injection H as <-. rewrite Z.ltb_ge. lia.
Qed.
Lemma missed_defined now phys r : in_int64 now -> 0 <= now -> in_int64 (r_deadline r) ->
  now + Z.max 0 (r_deadline r) <= LLONG_MAX -> exists m, missed now phys r = Ok m.
Proof.
  intros H1 H2 H3 H4. unfold missed, c_add64, bind. destruct (0 <=? r_deadline r) eqn:K; [|eauto].
  destruct (r_deadline r =? 0); [eauto|].
  assert (in_int64b (now + r_deadline r) = true) as ->; [|eauto].
  unfold in_int64b, LLONG_MIN, LLONG_MAX in *. lia.
Qed.

(** C55: a reaction with a deadline and a handler for it runs its body exactly if
    it starts in time, and its handler otherwise; exactly one of the two runs,
    exactly once, and the reactions that it triggers are scheduled right after.
    This holds in the single-threaded runtime ... *)
Theorem C55_single now phys r ev r' :
  run_single now phys r = Ok (ev, r') -> (r_has_handler r = true \/ in_time now phys r) ->
  (in_time now phys r -> times Body ev = 1%nat /\ times DeadlineHandler ev = 0%nat) /\
  (~ in_time now phys r -> times Body ev = 0%nat /\ times DeadlineHandler ev = 1%nat) /\
  outputs_follow ev.
Proof.
  unfold run_single, bind. destruct (missed now phys r) as [m|] eqn:E; [|discriminate].
  apply missed_spec in E. intros H Hh. destruct m; injection H as <- <-.
  - assert (~ in_time now phys r) by (rewrite <- E; discriminate).
    destruct Hh as [Hh|Hh]; [|contradiction]. unfold handler_events. rewrite Hh. repeat split; try contradiction.
  - assert (in_time now phys r) by now apply E. repeat split; try contradiction.
Qed.

(** ... for a reaction taken by a worker, where an STP violation that has a
    handler replaces the body (but not the deadline handler) ... *)
Theorem C55_worker now phys r ev r' :
  run_worker now phys r = Ok (ev, r') -> (r_has_handler r = true \/ in_time now phys r) ->
  let stp := r_stp_violated r && negb (r_input r) && r_has_stp r in
  (in_time now phys r -> stp = false -> ev = [Body; Outputs]) /\
  (in_time now phys r -> stp = true -> ev = [StpHandler; Outputs]) /\
  (~ in_time now phys r -> ev = [DeadlineHandler; Outputs]) /\
  outputs_follow ev /\ (in_time now phys r -> r_stp_violated r' = false).
Proof.
  unfold run_worker, bind. destruct (missed now phys r) as [m|] eqn:E; [|discriminate].
  apply missed_spec in E. intros H Hh. cbn zeta. destruct m.
  - assert (~ in_time now phys r) by (rewrite <- E; discriminate). injection H as <- <-.
    destruct Hh as [Hh|Hh]; [|contradiction]. unfold handler_events. rewrite Hh. repeat split; try contradiction.
  - assert (in_time now phys r) by now apply E.
    destruct (r_stp_violated r && negb (r_input r) && r_has_stp r); injection H as <- <-; repeat split; try contradiction; try discriminate.
Qed.

(** ... and for a reaction executed at once by the worker that enabled it,
    provided that no STP handler is due. *)
Theorem C55_now dec now phys r ev r' :
  run_now dec now phys r = Ok (ev, r') -> (r_has_handler r = true \/ in_time now phys r) ->
  dec && r_stp_violated r && r_has_stp r = false ->
  (in_time now phys r -> ev = [Body; Outputs]) /\
  (~ in_time now phys r -> ev = [DeadlineHandler; Outputs]) /\
  outputs_follow ev.
Proof.
  unfold run_now, bind. intros H Hh Hs. rewrite Hs in H. cbn zeta in H.
  destruct (missed now phys r) as [m|] eqn:E; [|discriminate].
  apply missed_spec in E. destruct m; cbn [orb negb app] in H; injection H as <- <-.
  - assert (~ in_time now phys r) by (rewrite <- E; discriminate).
    destruct Hh as [Hh|Hh]; [|contradiction]. unfold handler_events. rewrite Hh. repeat split; try contradiction.
  - assert (in_time now phys r) by now apply E. repeat split; try contradiction.
Qed.

(** If an STP handler is due, it runs, once, and the body does not; the violation is then off the record. *)
Theorem C55_now_stp now phys r ev r' :
  run_now true now phys r = Ok (ev, r') -> r_stp_violated r = true -> r_has_stp r = true ->
  times StpHandler ev = 1%nat /\ times Body ev = 0%nat /\ outputs_follow ev /\ r_stp_violated r' = false.
Proof.
  unfold run_now, bind. intros H Hv Hs. rewrite Hv, Hs in H. cbn zeta in H. cbn [andb orb negb] in H.
  destruct (missed now phys r) as [m|]; [|discriminate]. injection H as <- <-. unfold handler_events. destruct m, (r_has_handler r); repeat split.
Qed.

(** The decision is defined as long as logical time plus deadline is
    representable. *)
Theorem C55_defined dec now phys r :
  in_int64 now -> 0 <= now -> in_int64 (r_deadline r) -> now + Z.max 0 (r_deadline r) <= LLONG_MAX ->
  run_single now phys r <> UB /\ run_worker now phys r <> UB /\ run_now dec now phys r <> UB.
Proof.
  intros H1 H2 H3 H4. destruct (missed_defined now phys r H1 H2 H3 H4) as [m E].
  unfold run_single, run_worker, run_now, bind. rewrite E.
  split; [|split]; repeat match goal with |- context [if ?b then _ else _] => destruct b end; discriminate.
Qed.
Theorem C55_overflow_refuted : exists now phys r, in_int64 now /\ 0 <= now /\ in_int64 (r_deadline r) /\
  run_worker now phys r = UB.
Proof.
  exists 1, 0, (mkReaction LLONG_MAX true false false false).
  repeat split; try (unfold LLONG_MIN, LLONG_MAX; cbn; lia).
Qed.

(** A reaction that misses a deadline for which it has no handler is dropped:
    nothing at all runs. *)
Theorem C55_no_handler_refuted : exists now phys r, 0 <= r_deadline r /\
  run_single now phys r = Ok ([], r) /\ run_worker now phys r = Ok ([], r).
Proof. exists 100, 200, (mkReaction 50 false false false false). repeat split; cbn; lia. Qed.

(** A reaction executed at once after an STP violation runs both its STP handler
    and its deadline handler, where one taken by a worker runs only one. *)
Theorem C55_both_refuted : exists now phys r r1 r2,
  run_now true now phys r = Ok ([StpHandler; Outputs; DeadlineHandler; Outputs], r1) /\
  run_worker now phys r = Ok ([DeadlineHandler; Outputs], r2).
Proof. exists 100, 200, (mkReaction 50 true true true false). do 2 eexists. split; reflexivity. Qed.

(** A worker that runs the deadline handler leaves the STP violation of that tag
    on record: at a later tag, triggered by an event that is not late and with
    its deadline met, the reaction runs its STP handler instead of its body. *)
Theorem C55_stale_stp_refuted : exists now1 phys1 now2 phys2 r e1 r1 r2,
  now1 < now2 /\ run_worker now1 phys1 r = Ok (e1, r1) /\ in_time now2 phys2 r1 /\
  run_worker now2 phys2 (popped false r1) = Ok ([StpHandler; Outputs], r2).
Proof.
  exists 100, 200, 1000, 1001, (mkReaction 50 true true true false). do 3 eexists.
  split; [lia|]. split; [reflexivity|]. split; [right; cbn; lia|reflexivity].
Qed.

(** lf_check_deadline agrees with the runtime for a positive deadline ... *)
Theorem C55_check now phys inv r b ev : 0 < r_deadline r -> r_has_handler r = true ->
  check_deadline now phys inv r = Ok (b, ev) ->
  (b = false <-> in_time now phys r) /\ ev = (if b && inv then [DeadlineHandler] else []).
Proof.
  intros Hd Hh. unfold check_deadline, bind, c_add64, in_time. destruct (in_int64b (now + r_deadline r)); [|discriminate].
  rewrite Hh. destruct (Z.ltb_spec (now + r_deadline r) phys); intros [= <- <-]; cbn [andb].
  - split; [|now destruct inv]. split; [discriminate|lia].
  - split; [|reflexivity]. split; [lia|reflexivity].
Qed.
(** ... but not otherwise: without a deadline it reports a violation and calls
    through a null pointer, and a zero deadline, always violated for the runtime,
    is not reported at the logical time itself. *)
Theorem C55_check_refuted :
  (exists now phys r, in_time now phys r /\ check_deadline now phys true r = Ok (true, [CallNull])) /\
  (exists now phys r, r_deadline r = 0 /\ missed now phys r = Ok true /\ check_deadline now phys true r = Ok (false, [])).
Proof.
  split.
  - exists 100, 100, (mkReaction LLONG_MIN false false false false). split; [left; cbn; unfold LLONG_MIN; lia|reflexivity].
  - exists 100, 100, (mkReaction 0 true false false false). repeat split.
Qed.

Example C55_ex : let r := mkReaction 50 true false false false in
  run_single 100 150 r = Ok ([Body; Outputs], r) /\ run_single 100 151 r = Ok ([DeadlineHandler; Outputs], r) /\
  run_worker 100 151 r = Ok ([DeadlineHandler; Outputs], r) /\ run_now true 100 150 r = Ok ([Body; Outputs], r) /\
  in_time 100 150 r.
Proof. cbn zeta. split; [reflexivity|]. split; [reflexivity|]. split; [reflexivity|]. split; [reflexivity|]. right. cbn. lia. Qed.

Print Assumptions C33_order.
Print Assumptions C33_level.
Print Assumptions C33_iso_c.
Print Assumptions C33_defined_refuted.
Print Assumptions C55_single.
Print Assumptions C55_worker.
Print Assumptions C55_now.
Print Assumptions C55_defined.
Print Assumptions C55_overflow_refuted.
Print Assumptions C55_no_handler_refuted.
Print Assumptions C55_both_refuted.
Print Assumptions C55_stale_stp_refuted.
Print Assumptions C55_check.
Print Assumptions C55_check_refuted.
