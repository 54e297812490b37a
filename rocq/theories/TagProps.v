(** Property theorems C01-C05 (tags and tag arithmetic). *)
From Verif Require Import Base Tag TagSpec TagProofs.

(** C01 — [lf_tag_compare] is the lexicographic order, a total order. *)
Theorem C01_compare_is_lexicographic : forall a b : tag,
  (tag_compare a b = -1 <-> tag_lt a b) /\
  (tag_compare a b = 0 <-> a = b) /\
  (tag_compare a b = 1 <-> tag_lt b a) /\
  (tag_compare a b = -1 \/ tag_compare a b = 0 \/ tag_compare a b = 1).
Proof.
  exact (fun a b => conj (tag_compare_lt a b) (conj (tag_compare_eq a b)
          (conj (tag_compare_gt a b) (tag_compare_range a b)))).
Qed.
Print Assumptions C01_compare_is_lexicographic.

Theorem C01_compare_total_order : forall a b c : tag,
  tag_compare b a = - tag_compare a b /\
  (tag_compare a b <= 0 -> tag_compare b c <= 0 -> tag_compare a c <= 0) /\
  (tag_compare a b <= 0 -> tag_compare b a <= 0 -> a = b).
Proof.
  intros a b c. split; [exact (tag_compare_anti a b)|].
  rewrite !tag_compare_le. split; [exact (tag_le_trans a b c)|exact (tag_le_antisym a b)].
Qed.
Print Assumptions C01_compare_total_order.

Theorem C01_sentinels_are_extreme : forall t, tag_ok t ->
  tag_compare NEVER_TAG t <= 0 /\ tag_compare t FOREVER_TAG <= 0.
Proof.
  intros t Ht. rewrite !tag_compare_le.
  exact (conj (tag_never_least t Ht) (tag_forever_greatest t Ht)).
Qed.
Print Assumptions C01_sentinels_are_extreme.
Example C01_ex : tag_ok (mkTag 5 7) /\ tag_compare (mkTag 5 7) (mkTag 5 8) = -1.
Proof. split; [tag_consts; lia|reflexivity]. Qed.

(** C02 — saturating addition of times.  [sat_sum] clamps the exact sum.
    With two's-complement addition the code computes exactly that; in ISO C the
    call is undefined precisely when saturation (without a sentinel argument)
    would be needed, and correct otherwise. *)
Theorem C02_time_add_saturates : forall a b, in_int64 a -> in_int64 b ->
  time_add_wrap a b = sat_sum a b.
Proof. exact time_add_wrap_sat. Qed.
Print Assumptions C02_time_add_saturates.

Theorem C02_time_add_iso_c : forall a b, in_int64 a -> in_int64 b ->
  (forall r, time_add a b = Ok r -> r = sat_sum a b) /\
  (time_add a b = UB <->
     a <> NEVER /\ b <> NEVER /\ a <> FOREVER /\ b <> FOREVER /\ ~ in_int64 (a + b)).
Proof.
  exact (fun a b Ha Hb => conj (fun r => time_add_defined a b r Ha Hb) (time_add_ub a b Ha Hb)).
Qed.
Print Assumptions C02_time_add_iso_c.

(** The documented "saturating on overflow and underflow" does not hold in ISO C:
    the overflow test comes after an addition that is undefined on overflow. *)
Theorem C02_saturation_refuted : exists a b, in_int64 a /\ in_int64 b /\ time_add a b = UB.
Proof. exists (LLONG_MAX - 1), 2. repeat split; try (vm_compute; discriminate). Qed.
Print Assumptions C02_saturation_refuted.

Theorem C02_time_add_laws : forall a a' b, in_int64 a -> in_int64 a' -> in_int64 b ->
  time_add_wrap a b = time_add_wrap b a /\
  in_int64 (time_add_wrap a b) /\
  (a <= a' -> time_add_wrap a b <= time_add_wrap a' b).
Proof.
  intros a a' b Ha Ha' Hb. rewrite !time_add_wrap_sat by assumption.
  exact (conj (sat_sum_comm a b) (conj (sat_sum_ok a b Ha Hb) (sat_sum_mono a a' b Ha Ha' Hb))).
Qed.
Print Assumptions C02_time_add_laws.
Example C02_ex : time_add 5 (-7) = Ok (-2) /\ time_add_wrap (LLONG_MAX - 1) 2 = FOREVER
  /\ time_add_wrap (LLONG_MIN + 1) (-5) = NEVER.
Proof. repeat split. Qed.

(** C03 — adding a (non-negative) delay to a tag. *)
Theorem C03_zero_is_neutral : forall a, tag_ok a -> NEVER < ttime a < FOREVER ->
  tag_add a (mkTag 0 0) = a.
Proof. intros a Ha H. apply tag_add_zero; [exact Ha| |]; lia. Qed.
Print Assumptions C03_zero_is_neutral.

(** The result in every case: sentinel, time overflow, microstep overflow, exact sum
    with the microstep reset by a positive time delay. *)
Theorem C03_tag_add_meaning : forall a d, tag_ok a -> delay_ok d ->
  let m := if 0 <? ttime d then 0 else tmicro a in
  (ttime a = NEVER /\ tag_add a d = NEVER_TAG) \/
  (ttime a <> NEVER /\ FOREVER <= Z.max (ttime a + ttime d) (ttime d) /\ tag_add a d = FOREVER_TAG) \/
  (ttime a <> NEVER /\ Z.max (ttime a + ttime d) (ttime d) < FOREVER /\
     UINT_MAX < m + tmicro d /\ tag_add a d = FOREVER_TAG) \/
  (ttime a <> NEVER /\ Z.max (ttime a + ttime d) (ttime d) < FOREVER /\
     m + tmicro d <= UINT_MAX /\ tag_add a d = mkTag (ttime a + ttime d) (m + tmicro d)).
Proof. exact tag_add_cases. Qed.
Print Assumptions C03_tag_add_meaning.

Theorem C03_never_backwards : forall a d, tag_ok a -> delay_ok d -> NEVER < ttime a ->
  tag_le a (tag_add a d) /\
  (ttime a < FOREVER -> d <> mkTag 0 0 -> tag_lt a (tag_add a d)).
Proof.
  intros a d Ha Hd Hn. split; [exact (tag_add_nondec a d Ha Hd Hn)|].
  intros Hf Hz. exact (tag_add_inc a d Ha Hd (conj Hn Hf) Hz).
Qed.
Print Assumptions C03_never_backwards.

Theorem C03_monotone : forall a a' d d', tag_ok a -> tag_ok a' -> delay_ok d -> delay_ok d' ->
  tmicro a + tmicro d <= UINT_MAX -> tmicro a' + tmicro d <= UINT_MAX ->
  tag_le a a' -> tag_le d d' -> tag_le (tag_add a d) (tag_add a' d').
Proof.
  intros a a' d d' Ha Ha' Hd Hd' Hm Hm' Hle Hle'.
  exact (tag_le_trans _ _ _ (tag_add_mono_l a a' d Ha Ha' Hd Hm Hle)
           (tag_add_mono_r a' d d' Ha' Hd Hd' Hm' Hle')).
Qed.
Print Assumptions C03_monotone.

(** Without the microstep bound monotonicity is false: on microstep overflow the
    code jumps to FOREVER_TAG, beyond the sums of later tags. *)
Theorem C03_monotone_refuted : exists a a' d, tag_ok a /\ tag_ok a' /\ delay_ok d /\
  tag_le a a' /\ tag_lt (tag_add a' d) (tag_add a d).
Proof.
  exists (mkTag 1 UINT_MAX), (mkTag 2 0), (mkTag 0 1).
  repeat split; try (vm_compute; discriminate). 
  - left; reflexivity.
  - left; reflexivity.
Qed.
Print Assumptions C03_monotone_refuted.

Theorem C03_hop_by_hop : forall a d1 d2, tag_ok a -> 0 <= ttime a -> delay_ok d1 -> delay_ok d2 ->
  tmicro a + tmicro d1 + tmicro d2 <= UINT_MAX ->
  tag_add (tag_add a d1) d2 = tag_add a (tag_add d1 d2).
Proof. exact tag_add_assoc. Qed.
Print Assumptions C03_hop_by_hop.
Example C03_ex :
  tag_ok (mkTag 10 3) /\ delay_ok (mkTag 0 1) /\ delay_ok (mkTag 5 0) /\
  tag_add (tag_add (mkTag 10 3) (mkTag 0 1)) (mkTag 5 0) = mkTag 15 0 /\
  tag_add (mkTag 10 3) (mkTag 0 1) = mkTag 10 4.
Proof. repeat split; try (vm_compute; discriminate). Qed.

(** C04 — [lf_delay_tag]. *)
Theorem C04_strictly_later : forall t d, tag_ok t -> 0 <= d -> in_int64 d ->
  NEVER < ttime t < FOREVER -> (d = 0 -> tmicro t < UINT_MAX) ->
  tag_lt t (delay_tag t d).
Proof. exact delay_tag_inc. Qed.
Print Assumptions C04_strictly_later.

(** At the last microstep a zero delay goes back to microstep 0. *)
Theorem C04_strictly_later_refuted : exists t d, tag_ok t /\ 0 <= d /\ in_int64 d /\
  NEVER < ttime t < FOREVER /\ tag_lt (delay_tag t d) t.
Proof.
  exists (mkTag 5 UINT_MAX), 0. repeat split; try (vm_compute; discriminate). right; split; reflexivity.
Qed.
Print Assumptions C04_strictly_later_refuted.

Theorem C04_no_delay : forall t d, d < 0 -> delay_tag t d = t.
Proof. exact delay_tag_no_delay. Qed.
Print Assumptions C04_no_delay.

Theorem C04_monotone : forall a b d, tag_ok a -> tag_ok b -> in_int64 d ->
  (d = 0 -> tmicro b < UINT_MAX) -> tag_le a b -> tag_le (delay_tag a d) (delay_tag b d).
Proof. exact delay_tag_mono. Qed.
Print Assumptions C04_monotone.

(** The delayed tag is the tag plus the delay written as a tag: NEVER is (0,0),
    0 is (0,1), d is (d,0). *)
Theorem C04_delay_is_addition : forall t d, tag_ok t -> in_int64 d -> 0 <= ttime t < FOREVER ->
  (d = 0 -> tmicro t < UINT_MAX) ->
  delay_tag t d = tag_add t (delay_tag (mkTag 0 0) d).
Proof. exact delay_tag_as_add. Qed.
Print Assumptions C04_delay_is_addition.

(** The documented example "tag = (FOREVER, 0), interval = 10 gives (FOREVER, 0)"
    (tag.h:141) is not what the code does. *)
Theorem C04_doc_example_refuted : delay_tag (mkTag FOREVER 0) 10 <> mkTag FOREVER 0.
Proof. vm_compute; discriminate. Qed.
Print Assumptions C04_doc_example_refuted.
Example C04_ex : tag_ok (mkTag 7 2) /\ delay_tag (mkTag 7 2) 0 = mkTag 7 3
  /\ delay_tag (mkTag 7 2) 10 = mkTag 17 0.
Proof. repeat split; try (vm_compute; discriminate). Qed.

(** C05 — [lf_delay_strict]. *)
Theorem C05_below_every_later_message : forall c s d, tag_ok c -> tag_ok s -> in_int64 d -> d < FOREVER ->
  tag_lt c s -> ttime s + Z.max 0 d < FOREVER -> (d = 0 -> tmicro s < UINT_MAX) ->
  tag_lt (delay_strict c d) (delay_tag s d).
Proof. exact delay_strict_below. Qed.
Print Assumptions C05_below_every_later_message.

Theorem C05_latest_below_for_positive_delays : forall t d, tag_ok t -> 0 < d < FOREVER -> in_int64 d ->
  NEVER < ttime t -> ttime t + d < FOREVER ->
  tag_lt (delay_strict t d) (delay_tag t d) /\
  (forall x, tag_ok x -> tag_lt x (delay_tag t d) -> tag_le x (delay_strict t d)).
Proof. exact delay_strict_latest. Qed.
Print Assumptions C05_latest_below_for_positive_delays.

Theorem C05_above_earlier_messages : forall c s d, tag_ok c -> tag_ok s -> 0 < d < FOREVER -> in_int64 d ->
  ttime s < ttime c -> ttime c + d < FOREVER -> tag_le (delay_tag s d) (delay_strict c d).
Proof. exact delay_strict_above. Qed.
Print Assumptions C05_above_earlier_messages.

(** Documentation of lf_delay_strict (tag.h:147-161): for interval 0 it promises
    the unmodified tag (the latest tag below the sum), and for every negative interval the unmodified tag. *)
Theorem C05_zero_interval_doc_refuted : exists t, tag_ok t /\
  ~ tag_lt (delay_strict t 0) (delay_tag t 0) /\ delay_strict t 0 <> t.
Proof.
  exists (mkTag 5 0). split; [split; vm_compute; split; discriminate|].
  split; [apply tag_lt_irrefl|vm_compute; discriminate].
Qed.
Print Assumptions C05_zero_interval_doc_refuted.
Theorem C05_negative_interval_doc_refuted : exists t d, tag_ok t /\ d < 0 /\ delay_strict t d <> t.
Proof.
  exists (mkTag 5 0), (-3). split; [split; vm_compute; split; discriminate|].
  split; [reflexivity|vm_compute; discriminate].
Qed.
Print Assumptions C05_negative_interval_doc_refuted.
(** At microstep overflow a later message can fall at or below the strict bound. *)
Theorem C05_below_every_later_message_refuted : exists c s, tag_ok c /\ tag_ok s /\ tag_lt c s /\
  tag_lt (delay_tag s 0) (delay_strict c 0).
Proof.
  exists (mkTag 5 1), (mkTag 5 UINT_MAX).
  repeat split; try (vm_compute; discriminate); right; split; reflexivity.
Qed.
Print Assumptions C05_below_every_later_message_refuted.
Example C05_ex : tag_ok (mkTag 5 1) /\ tag_ok (mkTag 5 2) /\ tag_lt (mkTag 5 1) (mkTag 5 2) /\
  delay_strict (mkTag 5 1) 10 = mkTag 14 UINT_MAX /\ delay_tag (mkTag 5 2) 10 = mkTag 15 0.
Proof. repeat split; try (vm_compute; discriminate). right; split; reflexivity. Qed.
