(** Proofs about the platform clocks. *)
From Verif Require Import Base PlatformClock PlatformClockSpec.

Lemma pass_ticks : forall P h d, ticks (pass P h d) = ticks h + d.
Proof.
  intros P h d. unfold pass. destruct (_ <=? 0); [reflexivity|].
  destruct (masked h); reflexivity.
Qed.

Lemma pass_masked : forall P h d, masked (pass P h d) = masked h.
Proof.
  intros P h d. unfold pass. destruct (_ <=? 0); [reflexivity|].
  destruct (masked h); reflexivity.
Qed.

Definition hinv (P : Z) (h : hw) : Prop :=
  0 <= ticks h /\
  handled h + (if pending h then 1 else 0) = ticks h / P /\
  (pending h = true -> masked h = true).

Lemma div_mono : forall P a b, 0 < P -> a <= b -> a / P <= b / P.
Proof. intros. apply Z.div_le_mono; assumption. Qed.

Lemma pass_inv : forall P h d, 0 < P -> hinv P h -> op_ok P h (Pass d) -> hinv P (pass P h d).
Proof.
  intros P h d HP [I1 [I2 I3]] [D1 D2].
  pose proof (div_mono P (ticks h) (ticks h + d) HP ltac:(lia)) as M.
  unfold hinv. rewrite pass_ticks, pass_masked.
  unfold pass.
  destruct (Z.leb_spec ((ticks h + d) / P - ticks h / P) 0) as [L|L]; cbn.
  - split; [lia|split; [lia|exact I3]].
  - destruct (masked h) eqn:E; cbn.
    + specialize (D2 eq_refl). destruct (pending h); (split; [lia|split; [lia|reflexivity]]).
    + destruct (pending h) eqn:F; [specialize (I3 eq_refl); discriminate|].
      split; [lia|split; [lia|discriminate]].
Qed.

(** During a reading the handled overflows are all overflows. *)
Definition sharp (P : Z) (h : hw) : Prop :=
  0 <= ticks h /\ handled h = ticks h / P /\ pending h = false.

Lemma pass_sharp : forall P h d,
  0 < P -> 0 <= d -> sharp P h ->
  (masked h = true -> (ticks h + d) / P = ticks h / P) -> sharp P (pass P h d).
Proof.
  intros P h d HP HD [S1 [S2 S3]] M.
  pose proof (div_mono P (ticks h) (ticks h + d) HP ltac:(lia)) as Mo.
  unfold sharp. rewrite pass_ticks. unfold pass.
  destruct (Z.leb_spec ((ticks h + d) / P - ticks h / P) 0) as [L|L]; cbn.
  - split; [lia|split; [lia|exact S3]].
  - destruct (masked h) eqn:E; cbn.
    + specialize (M eq_refl). lia.
    + split; [lia|split; [lia|exact S3]].
Qed.

Lemma read_sharp : forall P h d1 d2 d3,
  0 < P -> hinv P h -> op_ok P h (Read d1 d2 d3) ->
  sharp P h /\ sharp P (pass P h d1) /\ sharp P (pass P (pass P h d1) d2) /\
  sharp P (pass P (pass P (pass P h d1) d2) d3).
Proof.
  intros P h d1 d2 d3 HP [I1 [I2 I3]] [D1 [D2 [D3 [D4 [D5 D6]]]]].
  rewrite D5 in I2.
  assert (S0 : sharp P h) by (split; [lia|split; [lia|exact D5]]).
  pose proof (div_mono P (ticks h) (ticks h + d1) HP ltac:(lia)) as M1.
  pose proof (div_mono P (ticks h + d1) (ticks h + d1 + d2) HP ltac:(lia)) as M2.
  pose proof (div_mono P (ticks h + d1 + d2) (ticks h + d1 + d2 + d3) HP ltac:(lia)) as M3.
  assert (S1 : sharp P (pass P h d1)).
  { apply pass_sharp; auto. intros E. specialize (D6 E). lia. }
  assert (S2 : sharp P (pass P (pass P h d1) d2)).
  { apply pass_sharp; auto. rewrite pass_masked, pass_ticks. intros E. specialize (D6 E). lia. }
  split; [exact S0|split; [exact S1|split; [exact S2|]]].
  apply pass_sharp; auto. rewrite !pass_masked, !pass_ticks. intros E. specialize (D6 E). lia.
Qed.

Lemma sharp_inv : forall P h, sharp P h -> hinv P h.
Proof.
  intros P h [S1 [S2 S3]]. split; [exact S1|]. rewrite S3. split; [lia|discriminate].
Qed.

Lemma next_inv : forall P h o, 0 < P -> hinv P h -> op_ok P h o -> hinv P (hw_next P h o).
Proof.
  intros P h o HP I K. destruct o as [d| | |d1 d2 d3]; cbn [hw_next].
  - apply pass_inv; assumption.
  - destruct I as [I1 [I2 I3]]. split; [exact I1|split; [exact I2|reflexivity]].
  - destruct I as [I1 [I2 I3]]. split; [exact I1|split; [|discriminate]].
    cbn. destruct (pending h); lia.
  - apply sharp_inv. apply (read_sharp P h d1 d2 d3 HP I K).
Qed.

Lemma next_ticks : forall P h o, op_ok P h o -> ticks (hw_next P h o) = ticks h + total [o].
Proof.
  intros P h o K. destruct o as [d| | |d1 d2 d3]; cbn [hw_next total].
  - rewrite pass_ticks; lia.
  - cbn; lia.
  - cbn; lia.
  - rewrite !pass_ticks. lia.
Qed.

Lemma total_cons : forall o l, total (o :: l) = total [o] + total l.
Proof. intros o l. destruct o; cbn; lia. Qed.

Lemma op_total_nonneg : forall P h o, op_ok P h o -> 0 <= total [o].
Proof. intros P h o K. destruct o; cbn in *; lia. Qed.

Lemma total_nonneg : forall P l h, history_ok P h l -> 0 <= total l.
Proof.
  intros P. induction l as [|o l IH]; intros h K; [cbn; lia|].
  destruct K as [K1 K2]. rewrite total_cons.
  pose proof (op_total_nonneg _ _ _ K1). specialize (IH _ K2). lia.
Qed.

(** ** nRF52 *)

Lemma two32_pos : 0 < two32. Proof. reflexivity. Qed.

Lemma small_high : forall x, 0 <= x -> 1000 * x <= LLONG_MAX -> (x / two32) mod two32 = x / two32.
Proof.
  intros x X0 X. apply Z.mod_small. unfold two32, LLONG_MAX in *.
  split; [apply Z.div_pos; lia|apply Z.div_lt_upper_bound; lia].
Qed.

Lemma mul_1000 : forall x, 0 <= x -> 1000 * x <= LLONG_MAX -> c_mul64 x 1000 = Ok (1000 * x).
Proof.
  intros x X0 X. unfold c_mul64, in_int64b.
  replace (x * 1000) with (1000 * x) by lia.
  replace ((LLONG_MIN <=? 1000 * x) && (1000 * x <=? LLONG_MAX)) with true; [reflexivity|].
  symmetry. apply andb_true_intro. split; apply Z.leb_le; unfold LLONG_MIN; lia.
Qed.

Lemma recombine : forall P t, 0 < P -> t / P * P + t mod P = t.
Proof.
  intros P t HP. rewrite (Z.mul_comm (t / P) P). symmetry. apply Z.div_mod.
  intro E. rewrite E in HP. discriminate.
Qed.

Lemma div_next : forall P a b, 0 < P -> b <= a + P -> b / P <= a / P + 1.
Proof.
  intros P a b HP H. rewrite <- Z.div_add by lia. rewrite Z.mul_1_l. apply div_mono; assumption.
Qed.

Lemma nrf_combine : forall P t0 t1 t2 t3,
  0 < P -> t0 <= t1 -> t1 <= t2 -> t2 <= t3 -> t3 <= t0 + P ->
  exists t, t2 / P * P + (if t0 / P =? t2 / P then t1 mod P else t3 mod P) = t /\ t0 <= t <= t3.
Proof.
  intros P t0 t1 t2 t3 HP A B C D.
  pose proof (div_mono P t0 t1 HP A) as M1.
  pose proof (div_mono P t1 t2 HP B) as M2.
  pose proof (div_mono P t2 t3 HP C) as M3.
  pose proof (div_next P t0 t3 HP D) as M4.
  pose proof (recombine P t1 HP) as R1. pose proof (recombine P t3 HP) as R3.
  generalize dependent (t1 mod P). generalize dependent (t3 mod P).
  generalize dependent (t0 / P). generalize dependent (t1 / P).
  generalize dependent (t2 / P). generalize dependent (t3 / P).
  intros q3 q2 M3 q1 M2 q0 M1 M4 m3 R3 m1 R1.
  destruct (Z.eqb_spec q0 q2) as [Q|Q].
  - exists t1. replace q2 with q1 by lia. split; [exact R1|lia].
  - exists t3. replace q2 with q3 by lia. split; [exact R3|lia].
Qed.

Lemma nrf_read : forall h d1 d2 d3,
  hinv two32 h -> op_ok two32 h (Read d1 d2 d3) ->
  1000 * (ticks h + d1 + d2 + d3) <= LLONG_MAX ->
  exists t, nrf_gettime h d1 d2 d3 = (hw_next two32 h (Read d1 d2 d3), Ok (1000 * t)) /\
            ticks h <= t <= ticks h + d1 + d2 + d3.
Proof.
  intros h d1 d2 d3 I K B.
  destruct (read_sharp two32 h d1 d2 d3 two32_pos I K) as [S0 [S1 [S2 S3]]].
  destruct K as [D1 [D2 [D3 [D4 _]]]].
  cbn [hw_next].
  unfold nrf_gettime.
  set (h1 := pass two32 h d1) in *. set (h2 := pass two32 h1 d2) in *.
  set (h3 := pass two32 h2 d3) in *.
  assert (T1 : ticks h1 = ticks h + d1) by apply pass_ticks.
  assert (T2 : ticks h2 = ticks h + d1 + d2) by (unfold h2; rewrite pass_ticks, T1; reflexivity).
  assert (T3 : ticks h3 = ticks h + d1 + d2 + d3) by (unfold h3; rewrite pass_ticks, T2; reflexivity).
  unfold nrf_high, counter.
  destruct S0 as [A0 [A1 _]], S2 as [_ [C1 _]].
  rewrite A1, C1, T1, T2, T3.
  clearbody h1 h2 h3. clear A1 C1 T1 T2 T3 S1 S3 I.
  generalize dependent (ticks h). intros t B A0.
  rewrite (small_high t) by lia. rewrite (small_high (t + d1 + d2)) by lia.
  destruct (nrf_combine two32 t (t + d1) (t + d1 + d2) (t + d1 + d2 + d3) two32_pos)
    as [x [X1 X2]]; [lia|lia|lia|lia|].
  exists x. split; [|exact X2]. f_equal. rewrite X1. apply mul_1000; lia.
Qed.

(** Readings in the order of time. *)
Fixpoint ordered (t : Z) (l : list reading) : Prop :=
  match l with
  | [] => True
  | r :: l' => t <= from r /\ from r <= upto r /\ ordered (upto r) l'
  end.

Lemma ordered_weaken : forall l a b, a <= b -> ordered b l -> ordered a l.
Proof. intros [|r l] a b H; cbn; [trivial|]. intros [A B]. split; [lia|exact B]. Qed.

Lemma nrf_run_true : forall l h,
  hinv two32 h -> history_ok two32 h l ->
  1000 * (ticks h + total l) <= LLONG_MAX ->
  exists h' rs, nrf_run h l = Ok (h', rs) /\
    Forall (true_time 1000) rs /\ ordered (ticks h) rs /\
    length rs = length (filter (fun o => match o with Read _ _ _ => true | _ => false end) l).
Proof.
  induction l as [|o l IH]; intros h I K B.
  - exists h, []. cbn. repeat split; constructor.
  - destruct K as [K1 K2]. rewrite total_cons in B.
    pose proof (next_inv two32 h o two32_pos I K1) as I'.
    pose proof (next_ticks two32 h o K1) as T'.
    pose proof (total_nonneg _ _ _ K2) as N.
    pose proof (op_total_nonneg _ _ _ K1) as N1.
    destruct (IH _ I' K2 ltac:(lia)) as [h' [rs [R1 [R2 [R3 R4]]]]].
    assert (Step : exists r1, nrf_step h o = Ok (hw_next two32 h o, r1) /\
              Forall (true_time 1000) r1 /\
              (forall rs, ordered (ticks (hw_next two32 h o)) rs -> ordered (ticks h) (r1 ++ rs)) /\
              length r1 = match o with Read _ _ _ => 1%nat | _ => 0%nat end).
    { destruct o as [d| | |d1 d2 d3].
      1-3: exists []; split; [reflexivity|split; [constructor|split; [|reflexivity]]];
        intros x X; apply (ordered_weaken _ _ (ticks (hw_next two32 h _))) with (2 := X);
        rewrite T'; cbn in *; lia.
      destruct (nrf_read h d1 d2 d3 I K1 ltac:(cbn [total] in *; lia)) as [t [E V]].
      exists [mkReading (ticks h) (ticks (hw_next two32 h (Read d1 d2 d3))) (1000 * t)].
      split; [cbn [nrf_step]; rewrite E; reflexivity|].
      split; [constructor; [|constructor]; exists t; cbn [from upto value]|].
      { rewrite T'. cbn [total]. split; [lia|reflexivity]. }
      split; [|reflexivity].
      intros x X. cbn [app ordered from upto]. split; [lia|split; [lia|exact X]]. }
    destruct Step as [r1 [St1 [St2 [St3 St4]]]].
    exists h', (r1 ++ rs). cbn [nrf_run].
    rewrite St1. cbn [bind fst snd]. rewrite R1. cbn [bind fst snd].
    split; [reflexivity|]. split; [apply Forall_app; split; assumption|].
    split; [apply St3; exact R3|].
    rewrite app_length, St4, R4. destruct o; reflexivity.
Qed.

Lemma true_ordered_nondec : forall s l t,
  0 <= s -> Forall (true_time s) l -> ordered t l -> nondecreasing (map value l).
Proof.
  intros s. induction l as [|r l IH]; intros t S F O; [exact Logic.I|].
  inversion F as [|? ? F1 F2]; subst. destruct O as [O1 [O2 O3]].
  cbn [map]. split; [|apply (IH (upto r)); assumption].
  destruct l as [|r2 l]; [exact Logic.I|]. cbn [map].
  inversion F2 as [|? ? F3 F4]; subst. destruct O3 as [O4 [O5 O6]].
  destruct F1 as [a [A1 A2]], F3 as [b [B1 B2]]. rewrite A2, B2.
  apply Z.mul_le_mono_nonneg_l; lia.
Qed.

(** ** Zephyr *)

Lemma zephyr_step_mono : forall c z o z' rs,
  zephyr_step c z o = Ok (z', rs) ->
  nondecreasing (last_nsec z :: map value rs ++ [last_nsec z']) /\
  (rs = [] /\ last_nsec z' = last_nsec z \/ exists r, rs = [r] /\ value r = last_nsec z').
Proof.
  intros c z o z' rs H. destruct o as [d| | |d1 d2 d3]; cbn [zephyr_step] in H.
  1-3: injection H as E1 E2; subst; cbn; split; [repeat split; lia|left; split; reflexivity].
  unfold zephyr_gettime in H.
  set (now := ticks_to_us c _ * 1000 + last_epoch_nsec c _) in H.
  destruct (now <? last_nsec z) eqn:L; destruct (in_int64b _) eqn:R; cbn [bind] in H;
    try discriminate; injection H as E1 E2; subst z' rs; cbn;
    (split; [repeat split; lia|right; eexists; split; reflexivity]).
Qed.

Lemma zephyr_run_mono : forall c l z z' rs,
  zephyr_run c z l = Ok (z', rs) -> nondecreasing (last_nsec z :: map value rs).
Proof.
  intros c. induction l as [|o l IH]; intros z z' rs H; cbn [zephyr_run] in H.
  - injection H as E1 E2; subst. cbn. repeat split.
  - destruct (zephyr_step c z o) as [[z1 r1]|] eqn:E; [|discriminate]. cbn [bind fst snd] in H.
    destruct (zephyr_run c z1 l) as [[z2 r2]|] eqn:E2; [|discriminate].
    cbn [bind fst snd] in H. injection H as F1 F2; subst.
    specialize (IH _ _ _ E2). destruct (zephyr_step_mono _ _ _ _ _ E) as [M [[-> EQ]|[r [-> V]]]].
    + cbn [app map]. rewrite <- EQ. exact IH.
    + cbn [app map]. cbn in M. rewrite <- V in IH. cbn [nondecreasing]. cbn [nondecreasing] in IH.
      split; [lia|exact IH].
Qed.

(** What a reading gives when the handled overflows are all overflows. *)
Definition zraw (c : zcfg) (t : Z) : Z :=
  1000 * (ticks_to_us c (t mod (top c + 1)) + t / (top c + 1) * ticks_to_us c (top c)).

Lemma ticks_to_us_mono : forall c a b, 0 < freq c -> a <= b -> ticks_to_us c a <= ticks_to_us c b.
Proof. intros c a b F H. unfold ticks_to_us. apply div_mono; lia. Qed.

Lemma ticks_to_us_nonneg : forall c a, 0 < freq c -> 0 <= a -> 0 <= ticks_to_us c a.
Proof. intros c a F H. unfold ticks_to_us. apply Z.div_pos; lia. Qed.

Lemma zraw_mono : forall c a b, zcfg_ok c -> 0 <= a <= b -> zraw c a <= zraw c b.
Proof.
  intros c a b [F T] H. unfold zraw. set (P := top c + 1).
  assert (HP : 0 < P) by (unfold P; lia).
  pose proof (div_mono P a b HP ltac:(lia)) as M.
  pose proof (Z.mod_pos_bound a P HP) as Ba. pose proof (Z.mod_pos_bound b P HP) as Bb.
  pose proof (Z.div_mod a P ltac:(lia)) as Ea. pose proof (Z.div_mod b P ltac:(lia)) as Eb.
  pose proof (ticks_to_us_nonneg c (b mod P) F ltac:(lia)) as Nb.
  pose proof (ticks_to_us_nonneg c (top c) F ltac:(lia)) as Nt.
  destruct (Z.eq_dec (a / P) (b / P)) as [Q|Q].
  - rewrite Q. rewrite Q in Ea.
    pose proof (ticks_to_us_mono c (a mod P) (b mod P) F ltac:(lia)). lia.
  - pose proof (ticks_to_us_mono c (a mod P) (top c) F ltac:(unfold P in *; lia)) as L.
    assert (a / P + 1 <= b / P) by lia.
    assert ((a / P + 1) * ticks_to_us c (top c) <= b / P * ticks_to_us c (top c)) by nia.
    lia.
Qed.

Lemma pass_add : forall P h a b,
  0 < P -> 0 <= a -> 0 <= b -> pass P h (a + b) = pass P (pass P h a) b.
Proof.
  intros P h a b HP A B.
  pose proof (div_mono P (ticks h) (ticks h + a) HP ltac:(lia)) as M1.
  pose proof (div_mono P (ticks h + a) (ticks h + a + b) HP ltac:(lia)) as M2.
  unfold pass at 1 2. rewrite pass_ticks, pass_masked.
  replace (ticks h + (a + b)) with (ticks h + a + b) by lia.
  unfold pass.
  destruct (Z.leb_spec ((ticks h + a) / P - ticks h / P) 0) as [L1|L1];
  destruct (Z.leb_spec ((ticks h + a + b) / P - (ticks h + a) / P) 0) as [L2|L2];
  destruct (Z.leb_spec ((ticks h + a + b) / P - ticks h / P) 0) as [L3|L3];
  try lia; destruct (masked h) eqn:E; cbn; rewrite ?E; f_equal; lia.
Qed.

Lemma zephyr_hw : forall c z o z' rs,
  zcfg_ok c -> op_ok (top c + 1) (zhw z) o ->
  zephyr_step c z o = Ok (z', rs) -> zhw z' = hw_next (top c + 1) (zhw z) o.
Proof.
  intros c z o z' rs [F T] K H. destruct o as [d| | |d1 d2 d3]; cbn [zephyr_step] in H.
  1-3: injection H as E1 E2; subst; reflexivity.
  unfold zephyr_gettime in H.
  destruct K as [D1 [D2 [D3 _]]].
  destruct (in_int64b _); [|discriminate]. cbn [bind] in H.
  injection H as E1 E2. subst z'. cbn [zhw hw_next].
  rewrite <- !pass_add by lia. f_equal. lia.
Qed.

Lemma zephyr_read : forall c z d1 d2 d3,
  zcfg_ok c -> hinv (top c + 1) (zhw z) -> op_ok (top c + 1) (zhw z) (Read d1 d2 d3) ->
  no_wrap (top c + 1) (zhw z) (Read d1 d2 d3) ->
  last_nsec z <= zraw c (ticks (zhw z)) ->
  zraw c (ticks (zhw z)) <= LLONG_MAX ->
  zephyr_step c z (Read d1 d2 d3) =
    Ok (mkZephyr (hw_next (top c + 1) (zhw z) (Read d1 d2 d3)) (zraw c (ticks (zhw z))),
        [mkReading (ticks (zhw z)) (ticks (zhw z) + d1 + d2 + d3) (zraw c (ticks (zhw z)))]).
Proof.
  intros c z d1 d2 d3 [F T] I K W L B. set (P := top c + 1) in *.
  assert (HP : 0 < P) by (unfold P; lia).
  destruct (read_sharp P (zhw z) d1 d2 d3 HP I K) as [S0 [S1 [S2 S3]]].
  destruct K as [D1 [D2 [D3 [D4 _]]]].
  cbn [zephyr_step]. unfold zephyr_gettime. fold P.
  assert (EQ : pass P (zhw z) (d1 + d2 + d3) = hw_next P (zhw z) (Read d1 d2 d3)).
  { cbn [hw_next]. rewrite <- !pass_add by lia. f_equal; lia. }
  rewrite EQ. cbn [hw_next].
  destruct S3 as [_ [H3 _]]. rewrite !pass_ticks in H3. cbn [no_wrap] in W.
  unfold last_epoch_nsec. rewrite H3, W.
  unfold epoch_duration_nsec, counter.
  replace (ticks_to_us c (ticks (zhw z) mod P) * 1000 +
           ticks (zhw z) / P * (ticks_to_us c (top c) * 1000))
    with (zraw c (ticks (zhw z))) by (unfold zraw; fold P; lia).
  destruct (Z.ltb_spec (zraw c (ticks (zhw z))) (last_nsec z)) as [X|X]; [lia|].
  assert (N : 0 <= zraw c (ticks (zhw z))).
  { unfold zraw. fold P. destruct S0 as [S0 _].
    pose proof (ticks_to_us_nonneg c (ticks (zhw z) mod P) F (proj1 (Z.mod_pos_bound _ P HP))).
    pose proof (ticks_to_us_nonneg c (top c) F ltac:(lia)).
    pose proof (Z.div_pos (ticks (zhw z)) P ltac:(lia) HP). nia. }
  replace (in_int64b (zraw c (ticks (zhw z)))) with true.
  2:{ symmetry. unfold in_int64b. apply andb_true_intro. split; apply Z.leb_le;
      unfold LLONG_MIN; lia. }
  cbn [bind]. rewrite !pass_ticks. reflexivity.
Qed.

Lemma zephyr_run_raw : forall c l z,
  zcfg_ok c -> hinv (top c + 1) (zhw z) -> history_ok (top c + 1) (zhw z) l ->
  no_wraps (top c + 1) (zhw z) l ->
  last_nsec z <= zraw c (ticks (zhw z)) ->
  zraw c (ticks (zhw z) + total l) <= LLONG_MAX ->
  exists z' rs, zephyr_run c z l = Ok (z', rs) /\
    Forall (fun r => value r = zraw c (from r) /\ 0 <= from r) rs /\
    length rs = length (filter (fun o => match o with Read _ _ _ => true | _ => false end) l).
Proof.
  intros c. induction l as [|o l IH]; intros z C I K W L B.
  - exists z, []. cbn. repeat split; constructor.
  - destruct K as [K1 K2], W as [W1 W2]. rewrite total_cons in B.
    assert (HP : 0 < top c + 1) by (destruct C; lia).
    pose proof (next_inv _ _ o HP I K1) as I'.
    pose proof (next_ticks _ _ o K1) as T'.
    pose proof (total_nonneg _ _ _ K2) as N.
    pose proof (op_total_nonneg _ _ _ K1) as N1.
    pose proof (proj1 I) as TP.
    assert (Step : exists z1 r1, zephyr_step c z o = Ok (z1, r1) /\
              zhw z1 = hw_next (top c + 1) (zhw z) o /\
              last_nsec z1 <= zraw c (ticks (zhw z1)) /\
              Forall (fun r => value r = zraw c (from r) /\ 0 <= from r) r1 /\
              length r1 = match o with Read _ _ _ => 1%nat | _ => 0%nat end).
    { destruct o as [d| | |d1 d2 d3].
      1-3: eexists; eexists; split; [reflexivity|]; split; [reflexivity|];
        split; [|split; [constructor|reflexivity]]; cbn [last_nsec zhw];
        (etransitivity; [exact L|]); apply zraw_mono; [exact C|]; cbn; rewrite ?pass_ticks; cbn in N1; lia.
      pose proof (zraw_mono c (ticks (zhw z)) (ticks (zhw z) + (total [Read d1 d2 d3] + total l)) C
                    ltac:(lia)) as Z1.
      eexists; eexists. split; [apply zephyr_read; auto; lia|].
      split; [reflexivity|]. cbn [last_nsec zhw].
      split; [apply zraw_mono; [exact C|]; rewrite T'; lia|].
      split; [|reflexivity]. constructor; [|constructor]. cbn [value from].
      split; [reflexivity|lia]. }
    destruct Step as [z1 [r1 [St1 [St2 [St3 [St4 St5]]]]]].
    rewrite <- St2 in I', K2, W2, T'.
    destruct (IH z1 C I' K2 W2 St3) as [z' [rs [R1 [R2 R3]]]].
    { rewrite T'. replace (ticks (zhw z) + total [o] + total l)
        with (ticks (zhw z) + (total [o] + total l)) by lia. exact B. }
    exists z', (r1 ++ rs). cbn [zephyr_run]. rewrite St1. cbn [bind fst snd].
    rewrite R1. cbn [bind fst snd].
    split; [reflexivity|]. split; [apply Forall_app; split; assumption|].
    rewrite app_length, St5, R3. destruct o; reflexivity.
Qed.

Lemma zraw_error : forall c t,
  zcfg_ok c -> 0 <= t ->
  freq c * zraw c t <= 1000000000 * t /\
  1000000000 * t <=
    freq c * zraw c t + (t / (top c + 1)) * (1000000000 + 1000 * freq c) + 1000 * freq c.
Proof.
  intros c t [F T] H. unfold zraw, ticks_to_us. set (P := top c + 1). set (f := freq c) in *.
  assert (HP : 0 < P) by (unfold P; lia).
  pose proof (Z.div_mod t P ltac:(lia)) as E.
  pose proof (Z.mod_pos_bound t P HP) as Bt.
  pose proof (Z.div_pos t P H HP) as K.
  set (k := t / P) in *. set (m := t mod P) in *.
  pose proof (Z.div_mod (m * 1000000) f ltac:(lia)) as Em.
  pose proof (Z.mod_pos_bound (m * 1000000) f F) as Bm.
  pose proof (Z.div_mod (top c * 1000000) f ltac:(lia)) as Et.
  pose proof (Z.mod_pos_bound (top c * 1000000) f F) as Btp.
  set (a := m * 1000000 / f) in *. set (b := top c * 1000000 / f) in *.
  assert (TP : top c = P - 1) by (unfold P; lia). rewrite TP in *.
  assert (K1 : k * ((P - 1) * 1000000) = k * (f * b + ((P - 1) * 1000000) mod f)) by (rewrite <- Et; reflexivity).
  assert (K2 : 0 <= k * (((P - 1) * 1000000) mod f) <= k * f) by nia.
  replace (1000000000 * t) with (1000 * (k * ((P - 1) * 1000000)) + 1000 * 1000000 * k + 1000 * (m * 1000000))
    by (rewrite E; ring).
  rewrite K1, Em.
  split; nia.
Qed.
