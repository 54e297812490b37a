(** Lemmas about tags and tag arithmetic. *)
From Verif Require Import Base Tag TagSpec.

Ltac tag_consts :=
  unfold delay_ok, tag_ok, in_int64, in_uint32, tag_lt, tag_le, NEVER_TAG, FOREVER_TAG,
    NEVER, FOREVER, NEVER_MICROSTEP, FOREVER_MICROSTEP, LLONG_MIN, LLONG_MAX, UINT_MAX,
    two32, two64 in *; cbn [ttime tmicro] in *.

Ltac case_if :=
  match goal with
  | |- context [if ?b then _ else _] => destruct b eqn:?
  | H : context [if ?b then _ else _] |- _ => destruct b eqn:?
  end.

Lemma tag_eq a b : ttime a = ttime b -> tmicro a = tmicro b -> a = b.
Proof. destruct a, b; cbn; intros -> ->; reflexivity. Qed.

Lemma tag_lt_irrefl a : ~ tag_lt a a.
Proof. unfold tag_lt; lia. Qed.
Lemma tag_lt_trans a b c : tag_lt a b -> tag_lt b c -> tag_lt a c.
Proof. unfold tag_lt; lia. Qed.
Lemma tag_le_refl a : tag_le a a.
Proof. unfold tag_le; lia. Qed.
Lemma tag_le_trans a b c : tag_le a b -> tag_le b c -> tag_le a c.
Proof. unfold tag_le; lia. Qed.
Lemma tag_le_lt_trans a b c : tag_le a b -> tag_lt b c -> tag_lt a c.
Proof. unfold tag_le, tag_lt; lia. Qed.
Lemma tag_lt_le_trans a b c : tag_lt a b -> tag_le b c -> tag_lt a c.
Proof. unfold tag_le, tag_lt; lia. Qed.
Lemma tag_lt_le a b : tag_lt a b -> tag_le a b.
Proof. unfold tag_le, tag_lt; lia. Qed.
Lemma tag_not_lt a b : ~ tag_lt a b <-> tag_le b a.
Proof. unfold tag_le, tag_lt; lia. Qed.
Lemma tag_not_le a b : ~ tag_le a b <-> tag_lt b a.
Proof. unfold tag_le, tag_lt; lia. Qed.
Lemma tag_le_antisym a b : tag_le a b -> tag_le b a -> a = b.
Proof. intros H1 H2; apply tag_eq; unfold tag_le in *; lia. Qed.
Lemma tag_le_lt_or_eq a b : tag_le a b <-> tag_lt a b \/ a = b.
Proof.
  split.
  - intros H. destruct (Z.eq_dec (ttime a) (ttime b)) as [e|ne];
      destruct (Z.eq_dec (tmicro a) (tmicro b)) as [e'|ne'];
      unfold tag_le, tag_lt in *; try lia.
    right; apply tag_eq; assumption.
  - intros [H| ->]; [apply tag_lt_le; exact H|apply tag_le_refl].
Qed.
Lemma tag_lt_trichotomy a b : tag_lt a b \/ a = b \/ tag_lt b a.
Proof.
  destruct (Z.eq_dec (ttime a) (ttime b)) as [e|ne];
    destruct (Z.eq_dec (tmicro a) (tmicro b)) as [e'|ne'];
    unfold tag_lt in *; try lia.
  right; left; apply tag_eq; assumption.
Qed.
Lemma tag_le_total a b : tag_le a b \/ tag_lt b a.
Proof. unfold tag_le, tag_lt; lia. Qed.

Lemma tag_compare_lt a b : tag_compare a b = -1 <-> tag_lt a b.
Proof. unfold tag_compare, tag_lt; repeat case_if; lia. Qed.
Lemma tag_compare_gt a b : tag_compare a b = 1 <-> tag_lt b a.
Proof. unfold tag_compare, tag_lt; repeat case_if; lia. Qed.
Lemma tag_compare_eq a b : tag_compare a b = 0 <-> a = b.
Proof.
  split.
  - intros H; apply tag_eq; revert H; unfold tag_compare; repeat case_if; lia.
  - intros ->. unfold tag_compare; repeat case_if; lia.
Qed.
Lemma tag_compare_range a b : tag_compare a b = -1 \/ tag_compare a b = 0 \/ tag_compare a b = 1.
Proof. unfold tag_compare; repeat case_if; lia. Qed.
Lemma tag_compare_le a b : tag_compare a b <= 0 <-> tag_le a b.
Proof. unfold tag_compare, tag_le; repeat case_if; lia. Qed.
Lemma tag_compare_ge a b : 0 <= tag_compare a b <-> tag_le b a.
Proof. unfold tag_compare, tag_le; repeat case_if; lia. Qed.
Lemma tag_compare_anti a b : tag_compare b a = - tag_compare a b.
Proof. unfold tag_compare; repeat case_if; lia. Qed.
Lemma tag_never_least t : tag_ok t -> tag_le NEVER_TAG t.
Proof. intros H; tag_consts; lia. Qed.
Lemma tag_forever_greatest t : tag_ok t -> tag_le t FOREVER_TAG.
Proof. intros H; tag_consts; lia. Qed.

(** lf_time_add *)

Lemma wrap64_id z : in_int64 z -> wrap64 z = z.
Proof.
  intros H; unfold wrap64; tag_consts.
  rewrite Z.mod_small by lia; lia.
Qed.
Lemma wrap64_hi z : LLONG_MAX < z <= 2 * LLONG_MAX -> wrap64 z = z - two64.
Proof.
  intros H; unfold wrap64; tag_consts.
  replace (z + 9223372036854775808) with ((z - 9223372036854775808) + 1 * 18446744073709551616) by lia.
  rewrite Z.mod_add by lia. rewrite Z.mod_small by lia; lia.
Qed.
Lemma wrap64_lo z : 2 * LLONG_MIN <= z < LLONG_MIN -> wrap64 z = z + two64.
Proof.
  intros H; unfold wrap64; tag_consts.
  replace (z + 9223372036854775808) with ((z + 27670116110564327424) + (-1) * 18446744073709551616) by lia.
  rewrite Z.mod_add by lia. rewrite Z.mod_small by lia; lia.
Qed.

Lemma time_add_wrap_sat a b : in_int64 a -> in_int64 b -> time_add_wrap a b = sat_sum a b.
Proof.
  intros Ha Hb; unfold time_add_wrap, sat_sum.
  fold NEVER FOREVER.
  destruct ((a =? NEVER) || (b =? NEVER)) eqn:E1; [reflexivity|].
  destruct ((a =? FOREVER) || (b =? FOREVER)) eqn:E2; [reflexivity|].
  unfold clamp64.
  destruct (Z_lt_dec LLONG_MAX (a + b)) as [hi|nhi].
  - rewrite wrap64_hi by (tag_consts; lia). tag_consts.
    repeat case_if; lia.
  - destruct (Z_lt_dec (a + b) LLONG_MIN) as [lo|nlo].
    + rewrite wrap64_lo by (tag_consts; lia). tag_consts. repeat case_if; lia.
    + rewrite wrap64_id by (tag_consts; lia). tag_consts. repeat case_if; lia.
Qed.

Lemma in_int64b_spec z : in_int64b z = true <-> in_int64 z.
Proof. unfold in_int64b, in_int64; lia. Qed.

Lemma time_add_ub a b : in_int64 a -> in_int64 b ->
  (time_add a b = UB <->
     (a <> NEVER /\ b <> NEVER /\ a <> FOREVER /\ b <> FOREVER /\ ~ in_int64 (a + b))).
Proof.
  intros Ha Hb; unfold time_add, c_add64, bind.
  destruct (in_int64b (a + b)) eqn:E.
  - rewrite in_int64b_spec in E.
    split; [repeat case_if; discriminate|intros; tauto].
  - assert (Hn : ~ in_int64 (a + b)) by (rewrite <- in_int64b_spec; congruence).
    destruct ((a =? NEVER) || (b =? NEVER)) eqn:E1.
    + split; [discriminate|lia].
    + destruct ((a =? FOREVER) || (b =? FOREVER)) eqn:E2.
      * split; [discriminate|lia].
      * split; [intros _; repeat split; try lia; exact Hn|reflexivity].
Qed.

Lemma time_add_defined a b r : in_int64 a -> in_int64 b -> time_add a b = Ok r -> r = sat_sum a b.
Proof.
  intros Ha Hb; unfold time_add, c_add64, bind, sat_sum; fold NEVER FOREVER.
  destruct ((a =? NEVER) || (b =? NEVER)) eqn:E1; [congruence|].
  destruct ((a =? FOREVER) || (b =? FOREVER)) eqn:E2; [congruence|].
  destruct (in_int64b (a + b)) eqn:E; [|discriminate].
  rewrite in_int64b_spec in E. unfold clamp64. tag_consts.
  repeat case_if; intros H; inversion H; lia.
Qed.

Lemma sat_sum_ok a b : in_int64 a -> in_int64 b -> in_int64 (sat_sum a b).
Proof. unfold sat_sum, clamp64; intros; tag_consts; repeat case_if; lia. Qed.
Lemma sat_sum_comm a b : sat_sum a b = sat_sum b a.
Proof. unfold sat_sum, clamp64; intros; tag_consts; repeat case_if; lia. Qed.
Lemma sat_sum_mono a a' b : in_int64 a -> in_int64 a' -> in_int64 b -> a <= a' -> sat_sum a b <= sat_sum a' b.
Proof. unfold sat_sum, clamp64; intros; tag_consts; repeat case_if; lia. Qed.

(** lf_tag_add *)

Lemma tag_add_ok a b : tag_ok a -> tag_ok b -> tag_ok (tag_add a b).
Proof.
  intros [Ha Ha'] [Hb Hb']; unfold tag_add. rewrite time_add_wrap_sat by assumption.
  pose proof (sat_sum_ok (ttime a) (ttime b) Ha Hb) as Hs.
  destruct (sat_sum (ttime a) (ttime b) =? FOREVER) eqn:E1; [tag_consts; lia|].
  destruct (sat_sum (ttime a) (ttime b) =? NEVER) eqn:E2; [tag_consts; lia|].
  match goal with |- context [if ?m <? ?x then _ else _] => destruct (m <? x) end; [tag_consts; lia|].
  match goal with |- context [?x mod two32] => pose proof (Z.mod_pos_bound x two32) as Hm end.
  tag_consts; lia.
Qed.

Lemma mod32_cases x : 0 <= x <= 2 * UINT_MAX ->
  (x <= UINT_MAX /\ x mod two32 = x) \/ (UINT_MAX < x /\ x mod two32 = x - two32).
Proof.
  intros H. destruct (Z_le_dec x UINT_MAX) as [l|n].
  - left; split; [exact l|]. apply Z.mod_small. tag_consts; lia.
  - right; split; [lia|].
    tag_consts. replace x with ((x - 4294967296) + 1 * 4294967296) at 1 by lia.
    rewrite Z.mod_add by lia. apply Z.mod_small; lia.
Qed.

(** A closed description of [tag_add] for non-negative delays. *)
Lemma tag_add_cases a d : tag_ok a -> delay_ok d ->
  let am := if 0 <? ttime d then 0 else tmicro a in
  (ttime a = NEVER /\ tag_add a d = NEVER_TAG) \/
  (ttime a <> NEVER /\ FOREVER <= Z.max (ttime a + ttime d) (ttime d) /\ tag_add a d = FOREVER_TAG) \/
  (ttime a <> NEVER /\ Z.max (ttime a + ttime d) (ttime d) < FOREVER /\ UINT_MAX < am + tmicro d /\ tag_add a d = FOREVER_TAG) \/
  (ttime a <> NEVER /\ Z.max (ttime a + ttime d) (ttime d) < FOREVER /\ am + tmicro d <= UINT_MAX /\
   tag_add a d = mkTag (ttime a + ttime d) (am + tmicro d)).
Proof.
  intros [Ha Ha'] [[Hd Hd'] Hd0] am.
  unfold tag_add. rewrite time_add_wrap_sat by assumption.
  fold am. assert (Ham : in_uint32 am) by (unfold am; case_if; tag_consts; lia).
  clearbody am.
  destruct (Z.eq_dec (ttime a) NEVER) as [en|nn].
  { left; split; [exact en|]. rewrite en. reflexivity. }
  right.
  destruct (Z_le_dec FOREVER (Z.max (ttime a + ttime d) (ttime d))) as [hi|nhi].
  { left. repeat split; try assumption.
    replace (sat_sum (ttime a) (ttime d)) with FOREVER; [reflexivity|].
    unfold sat_sum, clamp64; tag_consts; repeat case_if; lia. }
  right.
  replace (sat_sum (ttime a) (ttime d)) with (ttime a + ttime d)
    by (unfold sat_sum, clamp64; tag_consts; repeat case_if; lia).
  replace (ttime a + ttime d =? FOREVER) with false by (tag_consts; lia).
  replace (ttime a + ttime d =? NEVER) with false by (tag_consts; lia).
  destruct (mod32_cases (am + tmicro d)) as [[H1 H2]|[H1 H2]];
    try (tag_consts; lia); rewrite H2; clear H2.
  - right. repeat split; try assumption; try lia.
    replace (am + tmicro d <? am) with false by (tag_consts; lia). reflexivity.
  - left. repeat split; try assumption; try lia.
    replace (am + tmicro d - two32 <? am) with true by (tag_consts; lia). reflexivity.
Qed.

Lemma tag_add_zero a : tag_ok a -> ttime a <> NEVER -> ttime a <> FOREVER -> tag_add a (mkTag 0 0) = a.
Proof.
  intros Ha H1 H2.
  assert (Hd : delay_ok (mkTag 0 0)) by (tag_consts; lia).
  destruct (tag_add_cases a (mkTag 0 0) Ha Hd) as [H|[H|[H|H]]]; cbn [ttime tmicro] in H;
    change (0 <? 0) with false in H; cbn iota in H;
    tag_consts; try lia.
  destruct H as (_ & _ & _ & ->). apply tag_eq; cbn [ttime tmicro]; lia.
Qed.

Lemma tag_add_nondec a d : tag_ok a -> delay_ok d -> NEVER < ttime a -> tag_le a (tag_add a d).
Proof.
  intros Ha Hd Hn.
  destruct (tag_add_cases a d Ha Hd) as [H|[H|[H|H]]].
  - lia.
  - destruct H as (_ & _ & ->); apply tag_forever_greatest; assumption.
  - destruct H as (_ & _ & _ & ->); apply tag_forever_greatest; assumption.
  - destruct H as (_ & _ & H & ->). tag_consts. case_if; lia.
Qed.

Lemma tag_add_inc a d : tag_ok a -> delay_ok d -> NEVER < ttime a < FOREVER -> d <> mkTag 0 0 ->
  tag_lt a (tag_add a d).
Proof.
  intros Ha Hd Hn Hz.
  assert (Hz' : 0 < ttime d \/ 0 < tmicro d).
  { destruct (Z.eq_dec (ttime d) 0) as [e|n]; destruct (Z.eq_dec (tmicro d) 0) as [e'|n'];
      try (exfalso; apply Hz; apply tag_eq; assumption); tag_consts; lia. }
  destruct (tag_add_cases a d Ha Hd) as [H|[H|[H|H]]].
  - tag_consts; lia.
  - destruct H as (_ & _ & ->); tag_consts; lia.
  - destruct H as (_ & _ & _ & ->); tag_consts; lia.
  - destruct H as (_ & _ & H & ->). tag_consts. case_if; lia.
Qed.

Lemma tag_add_mono_l a a' d : tag_ok a -> tag_ok a' -> delay_ok d ->
  tmicro a + tmicro d <= UINT_MAX ->
  tag_le a a' -> tag_le (tag_add a d) (tag_add a' d).
Proof.
  intros Ha Ha' Hd Hm Hle.
  pose proof (tag_add_cases a d Ha Hd) as H.
  pose proof (tag_add_cases a' d Ha' Hd) as H'.
  cbv zeta in H, H'.
  assert (Hk : tag_ok (tag_add a' d)) by (apply tag_add_ok; [assumption|apply Hd]).
  assert (Hk2 : tag_ok (tag_add a d)) by (apply tag_add_ok; [assumption|apply Hd]).
  destruct H as [H|[H|[H|H]]]; destruct H' as [H'|[H'|[H'|H']]];
    repeat match goal with H : _ /\ _ |- _ => destruct H end;
    repeat match goal with H : tag_add _ _ = _ |- _ => rewrite H in *; clear H end;
    tag_consts; repeat case_if; try lia.
Qed.

Lemma tag_add_mono_r a d d' : tag_ok a -> delay_ok d -> delay_ok d' ->
  tmicro a + tmicro d <= UINT_MAX ->
  tag_le d d' -> tag_le (tag_add a d) (tag_add a d').
Proof.
  intros Ha Hd Hd' Hm Hle.
  pose proof (tag_add_cases a d Ha Hd) as H.
  pose proof (tag_add_cases a d' Ha Hd') as H'.
  cbv zeta in H, H'.
  destruct H as [H|[H|[H|H]]]; destruct H' as [H'|[H'|[H'|H']]];
    repeat match goal with H : _ /\ _ |- _ => destruct H end;
    repeat match goal with H : tag_add _ _ = _ |- _ => rewrite H in *; clear H end;
    tag_consts; repeat case_if; try lia.
Qed.

Lemma tag_add_assoc a d1 d2 : tag_ok a -> 0 <= ttime a -> delay_ok d1 -> delay_ok d2 ->
  tmicro a + tmicro d1 + tmicro d2 <= UINT_MAX ->
  tag_add (tag_add a d1) d2 = tag_add a (tag_add d1 d2).
Proof.
  intros Ha Ha0 Hd1 Hd2 Hm.
  assert (Hk1 : tag_ok (tag_add a d1)) by (apply tag_add_ok; [assumption|apply Hd1]).
  assert (Hk2 : tag_ok (tag_add d1 d2)) by (apply tag_add_ok; [apply Hd1|apply Hd2]).
  assert (Hk2' : delay_ok (tag_add d1 d2)).
  { split; [exact Hk2|].
    destruct (tag_add_cases d1 d2 (proj1 Hd1) Hd2) as [H|[H|[H|H]]]; tag_consts;
      repeat match goal with H : _ /\ _ |- _ => destruct H end;
      try lia; match goal with H : tag_add _ _ = _ |- _ => rewrite H; cbn [ttime]; lia end. }
  pose proof (tag_add_cases a d1 Ha Hd1) as H.
  pose proof (tag_add_cases d1 d2 (proj1 Hd1) Hd2) as H'.
  pose proof (tag_add_cases (tag_add a d1) d2 Hk1 Hd2) as H1.
  pose proof (tag_add_cases a (tag_add d1 d2) Ha Hk2') as H1'.
  cbv zeta in *.
  clear Hk1 Hk2 Hk2'.
  destruct H as [H|[H|[H|H]]]; destruct H' as [H'|[H'|[H'|H']]];
    repeat match goal with H : _ /\ _ |- _ => destruct H end;
    repeat match goal with H : tag_add _ _ = mkTag _ _ |- _ => rewrite H in *; clear H
                         | H : tag_add _ _ = FOREVER_TAG |- _ => rewrite H in *; clear H
                         | H : tag_add _ _ = NEVER_TAG |- _ => rewrite H in *; clear H end;
    try (exfalso; tag_consts; repeat case_if; lia);
    (destruct H1 as [H1|[H1|[H1|H1]]]; destruct H1' as [H1'|[H1'|[H1'|H1']]];
    repeat match goal with H : _ /\ _ |- _ => destruct H end;
    repeat match goal with H : tag_add _ _ = _ |- _ => rewrite H in *; clear H end;
    try reflexivity;
    try (exfalso; tag_consts; repeat case_if; lia);
    try (apply tag_eq; tag_consts; repeat case_if; lia)).
Qed.

(** lf_delay_tag *)

Lemma delay_tag_ok t d : tag_ok t -> in_int64 d -> tag_ok (delay_tag t d).
Proof.
  intros Ht Hd; unfold delay_tag.
  pose proof (Z.mod_pos_bound (tmicro t + 1) two32).
  repeat case_if; tag_consts; lia.
Qed.

Lemma delay_tag_inc t d : tag_ok t -> 0 <= d -> in_int64 d ->
  NEVER < ttime t < FOREVER -> (d = 0 -> tmicro t < UINT_MAX) ->
  tag_lt t (delay_tag t d).
Proof.
  intros Ht Hd Hd' Hn Hm; unfold delay_tag.
  destruct (Z.eq_dec d 0) as [->|ne].
  - specialize (Hm eq_refl). rewrite Z.mod_small by (tag_consts; lia).
    repeat case_if; tag_consts; lia.
  - repeat case_if; tag_consts; lia.
Qed.

Lemma delay_tag_no_delay t d : d < 0 -> delay_tag t d = t.
Proof. intros H; unfold delay_tag. replace (d <? 0) with true by lia. rewrite orb_true_r; reflexivity. Qed.

Lemma delay_tag_mono a b d : tag_ok a -> tag_ok b -> in_int64 d ->
  (d = 0 -> tmicro b < UINT_MAX) -> tag_le a b -> tag_le (delay_tag a d) (delay_tag b d).
Proof.
  intros Ha Hb Hd Hm Hle; unfold delay_tag.
  destruct (Z.eq_dec d 0) as [->|ne].
  - specialize (Hm eq_refl).
    rewrite (Z.mod_small (tmicro b + 1)) by (tag_consts; lia).
    destruct (mod32_cases (tmicro a + 1)) as [[? ->]|[? ->]]; try (tag_consts; lia);
    repeat case_if; tag_consts; lia.
  - repeat case_if; tag_consts; lia.
Qed.

(** The delay of a connection as a tag: a negative delay is no delay, zero is one
    microstep (rti_common.c:311 computes it as lf_delay_tag(ZERO_TAG, d)). *)
Lemma delay_tag_as_add t d : tag_ok t -> in_int64 d -> 0 <= ttime t < FOREVER ->
  (d = 0 -> tmicro t < UINT_MAX) ->
  delay_tag t d = tag_add t (delay_tag (mkTag 0 0) d).
Proof.
  intros Ht Hd Hn Hm.
  destruct (Z_lt_dec d 0) as [neg|nneg].
  { rewrite !delay_tag_no_delay by assumption. symmetry; apply tag_add_zero; tag_consts; lia. }
  destruct (Z.eq_dec d 0) as [->|ne].
  - specialize (Hm eq_refl).
    change (delay_tag (mkTag 0 0) 0) with (mkTag 0 1).
    assert (Hdd : delay_ok (mkTag 0 1)) by (tag_consts; lia).
    destruct (tag_add_cases t _ Ht Hdd) as [H|[H|[H|H]]]; cbn [ttime tmicro] in H;
      change (0 <? 0) with false in H; cbn iota in H; try (tag_consts; lia).
    destruct H as (_ & _ & _ & ->).
    unfold delay_tag. rewrite Z.mod_small by (tag_consts; lia).
    repeat case_if; try (exfalso; tag_consts; lia). apply tag_eq; tag_consts; lia.
  - destruct (Z.eq_dec d FOREVER) as [->|nf].
    { change (delay_tag (mkTag 0 0) FOREVER) with FOREVER_TAG.
      assert (Hdd : delay_ok FOREVER_TAG) by (tag_consts; lia).
      destruct (tag_add_cases t _ Ht Hdd) as [H|[H|[H|H]]]; cbn [ttime tmicro FOREVER_TAG] in H;
        try (tag_consts; lia).
      destruct H as (_ & _ & ->). unfold delay_tag.
      repeat case_if; try reflexivity; exfalso; tag_consts; lia. }
    assert (E : delay_tag (mkTag 0 0) d = mkTag d 0).
    { unfold delay_tag; cbn [ttime]; repeat case_if; try (exfalso; tag_consts; lia).
      apply tag_eq; cbn [ttime tmicro]; lia. }
    rewrite E.
    assert (Hdd : delay_ok (mkTag d 0)) by (tag_consts; lia).
    destruct (tag_add_cases t _ Ht Hdd) as [H|[H|[H|H]]]; cbn [ttime tmicro] in H;
      replace (0 <? d) with true in H by lia; cbn iota in H; try (tag_consts; lia).
    + destruct H as (_ & H & ->). unfold delay_tag.
      repeat case_if; try reflexivity; exfalso; tag_consts; lia.
    + destruct H as (_ & H & _ & ->). unfold delay_tag.
      repeat case_if; try (exfalso; tag_consts; lia). apply tag_eq; cbn [ttime tmicro]; lia.
Qed.

(** lf_delay_strict *)

Lemma delay_strict_below c s d : tag_ok c -> tag_ok s -> in_int64 d -> d < FOREVER ->
  tag_lt c s -> ttime s + Z.max 0 d < FOREVER -> (d = 0 -> tmicro s < UINT_MAX) ->
  tag_lt (delay_strict c d) (delay_tag s d).
Proof.
  intros Hc Hs Hd Hdf Hlt Hsat Hm; unfold delay_strict, delay_tag.
  destruct (Z.eq_dec d 0) as [->|ne].
  - specialize (Hm eq_refl).
    rewrite (Z.mod_small (tmicro s + 1)) by (tag_consts; lia).
    destruct (mod32_cases (tmicro c + 1)) as [[? ->]|[? ->]]; try (tag_consts; lia);
    change (0 =? 0) with true; cbn [negb andb]; repeat case_if; tag_consts; lia.
  - destruct (d =? 0) eqn:E0; [lia|]. destruct c as [ct cm], s as [st sm].
    cbn [ttime tmicro negb andb].
    repeat (case_if; cbn [ttime tmicro] in * ); tag_consts; lia.
Qed.

(** For a positive interval the result is the greatest tag below the sum. *)
Lemma delay_strict_latest t d : tag_ok t -> 0 < d < FOREVER -> in_int64 d ->
  NEVER < ttime t -> ttime t + d < FOREVER ->
  tag_lt (delay_strict t d) (delay_tag t d) /\
  (forall x, tag_ok x -> tag_lt x (delay_tag t d) -> tag_le x (delay_strict t d)).
Proof.
  intros Ht Hd Hd' Hn Hs.
  assert (E : delay_tag t d = mkTag (ttime t + d) 0).
  { unfold delay_tag; repeat case_if; try reflexivity; tag_consts; lia. }
  assert (E' : delay_strict t d = mkTag (ttime t + d - 1) UINT_MAX).
  { unfold delay_strict; rewrite E; cbn [ttime]; case_if; [reflexivity|tag_consts; lia]. }
  rewrite E, E'. split.
  - tag_consts; lia.
  - intros x Hx Hlt. tag_consts; lia.
Qed.

(** ... and it is at least the delayed tag of every earlier sending tag. *)
Lemma delay_strict_above c s d : tag_ok c -> tag_ok s -> 0 < d < FOREVER -> in_int64 d ->
  ttime s < ttime c -> ttime c + d < FOREVER -> tag_le (delay_tag s d) (delay_strict c d).
Proof.
  intros Hc Hs Hd Hd' Hlt Hsat; unfold delay_strict, delay_tag.
  destruct c as [ct cm], s as [st sm]; cbn [ttime tmicro].
  repeat (case_if; cbn [ttime tmicro] in * ); tag_consts; lia.
Qed.

Lemma delay_strict_ok t d : tag_ok t -> in_int64 d -> tag_ok (delay_strict t d).
Proof.
  intros Ht Hd. pose proof (delay_tag_ok t d Ht Hd) as H. unfold delay_strict.
  case_if; [|assumption]. tag_consts; lia.
Qed.
