(** Proofs about interruptible sleeps. *)
From Verif Require Import Base PlatformSleep PlatformSleepSpec.

Lemma span_cons : forall m l, span (m :: l) = elapsed m + span l.
Proof. reflexivity. Qed.

Lemma span_nonneg : forall l, forward l -> 0 <= span l.
Proof.
  induction l as [|m l IH]; intros F; [cbn; lia|].
  inversion F; subst. rewrite span_cons. specialize (IH H2). lia.
Qed.

Lemma clock_ns_le : forall t, clock_ns t <= t.
Proof. intros t. unfold clock_ns, clock_us. pose proof (Z.div_mod t 1000). pose proof (Z.mod_pos_bound t 1000). lia. Qed.

Lemma clock_ns_gt : forall t, t - 1000 < clock_ns t.
Proof. intros t. unfold clock_ns, clock_us. pose proof (Z.div_mod t 1000). pose proof (Z.mod_pos_bound t 1000). lia. Qed.

Lemma leave_inv : forall code t f l c t' rest,
  leave code t f l = Returned c t' rest ->
  exists m, l = m :: rest /\ t' = t + elapsed m /\ c = code (f || notified m).
Proof.
  intros code t f [|m l] c t' rest H; [discriminate|]. cbn in H.
  injection H as H1 H2 H3. subst. exists m. repeat split.
Qed.

(** A list whose notifications are all near its end. *)
Definition prompt (k : nat) (u : script) : Prop :=
  forall a m b, u = a ++ m :: b -> notified m = true -> (length b <= k)%nat.

Lemma prompt_nil : forall k, prompt k [].
Proof. intros k [|x a] m b E; discriminate. Qed.

Lemma prompt_quiet : forall k m u, notified m = false -> prompt k u -> prompt k (m :: u).
Proof.
  intros k m u Q P [|x a] m' b E N; cbn in E; injection E as E1 E2; subst.
  - rewrite Q in N. discriminate.
  - exact (P a m' b eq_refl N).
Qed.

Lemma prompt_short : forall k u, (length u <= S k)%nat -> prompt k u.
Proof.
  intros k u L a m b E _. subst u. rewrite app_length in L. cbn in L. lia.
Qed.

Lemma noticed_cons : forall m u, noticed u -> noticed (m :: u).
Proof. intros m u [x [I N]]. exists x. split; [right; exact I|exact N]. Qed.

Lemma noticed_head : forall m u, notified m = true -> noticed (m :: u).
Proof. intros m u N. exists m. split; [left; reflexivity|exact N]. Qed.

(** ** Patmos *)

Lemma busy_sound : forall wakeup l t code t' rest,
  busy wakeup t false l = Returned code t' rest ->
  forward l ->
  exists used, l = used ++ rest /\ t + span used = t' /\
    (code = 0 /\ wakeup <= t' /\ ~ noticed used \/ code = -1 /\ noticed used) /\ prompt 1 used.
Proof.
  intros wakeup. induction l as [|m l IH]; intros t code t' rest H F; [discriminate|].
  inversion F as [|? ? F1 F2]; subst. cbn [busy orb] in H.
  destruct (notified m) eqn:N.
  - rewrite andb_false_r in H. apply leave_inv in H. destruct H as [m2 [E1 [E2 E3]]]. subst.
    exists [m; m2]. split; [reflexivity|]. split; [rewrite !span_cons; cbn; lia|].
    split; [right; split; [reflexivity|apply noticed_head; exact N]|].
    apply prompt_short. cbn. lia.
  - rewrite andb_true_r in H. destruct (Z.ltb_spec (clock_ns (t + elapsed m)) wakeup) as [L|L].
    + destruct (IH _ _ _ _ H F2) as [u [U1 [U2 [U3 U4]]]]. exists (m :: u). subst l.
      split; [reflexivity|]. split; [rewrite span_cons; lia|].
      split; [|apply prompt_quiet; assumption].
      destruct U3 as [[A [B C]]|[A B]]; [left|right; split; [exact A|apply noticed_cons; exact B]].
      split; [exact A|split; [exact B|]]. intros [x [[X|X] Y]]; [subst x; congruence|].
      apply C. exists x. split; assumption.
    + apply leave_inv in H. destruct H as [m2 [E1 [E2 E3]]]. subst.
      exists [m; m2]. split; [reflexivity|]. split; [rewrite !span_cons; cbn; lia|].
      inversion F2 as [|? ? F3 F4]; subst.
      split; [|apply prompt_short; cbn; lia]. cbn [orb]. destruct (notified m2) eqn:N2.
      * right. split; [reflexivity|]. apply noticed_cons, noticed_head. exact N2.
      * left. split; [reflexivity|]. split; [pose proof (clock_ns_le (t + elapsed m)); lia|].
        intros [x [[X|[X|[]]] Y]]; subst x; congruence.
Qed.

Lemma busy_ends : forall wakeup l t m,
  forward l -> noticed l \/ wakeup + 1000 <= t + span l -> l <> [] ->
  exists code t' rest, busy wakeup t false (l ++ [m]) = Returned code t' rest.
Proof.
  intros wakeup. induction l as [|x l IH]; intros t m F H NE; [contradiction|].
  inversion F as [|? ? F1 F2]; subst. cbn [app busy orb].
  destruct (notified x) eqn:N.
  - rewrite andb_false_r. destruct l; cbn; eexists; eexists; eexists; reflexivity.
  - rewrite andb_true_r. destruct (Z.ltb_spec (clock_ns (t + elapsed x)) wakeup) as [L|L].
    + pose proof (clock_ns_gt (t + elapsed x)) as G.
      apply IH; [exact F2| |].
      * destruct H as [[y [[Y|Y] Z]]|H]; [subst; congruence|left; exists y; split; assumption|].
        right. rewrite span_cons in H. lia.
      * intros E. subst l. destruct H as [[y [[Y|[]] Z]]|H]; [subst; congruence|].
        rewrite span_cons in H. cbn in H. lia.
    + destruct l; cbn; eexists; eexists; eexists; reflexivity.
Qed.

(** ** Semaphores *)

Lemma take_sound : forall deadline l t got t' rest,
  take deadline t l = Some (got, t', rest) ->
  exists used, l = used ++ rest /\ t + span used = t' /\ prompt 0 used /\
    (got = true /\ noticed used \/ got = false /\ deadline <= t' /\ ~ noticed used).
Proof.
  intros deadline. induction l as [|m l IH]; intros t got t' rest H; [discriminate|].
  cbn [take] in H. destruct (notified m) eqn:N.
  - injection H as H1 H2 H3. subst. exists [m]. split; [reflexivity|].
    split; [rewrite span_cons; cbn; lia|]. split; [apply prompt_short; cbn; lia|].
    left. split; [reflexivity|apply noticed_head; exact N].
  - destruct (Z.leb_spec deadline (t + elapsed m)) as [L|L].
    + injection H as H1 H2 H3. subst. exists [m]. split; [reflexivity|].
      split; [rewrite span_cons; cbn; lia|]. split; [apply prompt_short; cbn; lia|].
      right. split; [reflexivity|split; [exact L|]]. intros [x [[X|[]] Y]]. subst. congruence.
    + destruct (IH _ _ _ _ H) as [u [U1 [U2 [U3 U4]]]]. subst l. exists (m :: u).
      split; [reflexivity|]. split; [rewrite span_cons; lia|].
      split; [apply prompt_quiet; assumption|].
      destruct U4 as [[A B]|[A [B C]]]; [left; split; [exact A|apply noticed_cons; exact B]|right].
      split; [exact A|split; [exact B|]]. intros [x [[X|X] Y]]; [subst; congruence|].
      apply C. exists x. split; assumption.
Qed.

Lemma take_ends : forall deadline l t m,
  l <> [] -> noticed l \/ deadline <= t + span l ->
  exists got t' rest, take deadline t (l ++ [m]) = Some (got, t', rest) /\ rest <> [].
Proof.
  intros deadline. induction l as [|x l IH]; intros t m NE H; [contradiction|].
  assert (Tail : l ++ [m] <> []) by (destruct l; discriminate).
  cbn [app take]. destruct (notified x) eqn:N; [eexists; eexists; eexists; split; [reflexivity|exact Tail]|].
  destruct (Z.leb_spec deadline (t + elapsed x)) as [L|L];
    [eexists; eexists; eexists; split; [reflexivity|exact Tail]|].
  apply IH.
  - intros E. subst l. destruct H as [[y [[Y|[]] Z]]|H]; [subst; congruence|].
    rewrite span_cons in H. cbn in H. lia.
  - destruct H as [[y [[Y|Y] Z]]|H]; [subst; congruence|left; exists y; split; assumption|].
    right. rewrite span_cons in H. lia.
Qed.

Lemma prompt_leave : forall u m, prompt 0 u -> prompt 1 (u ++ [m]).
Proof.
  intros u m P a x b E N.
  destruct (rev b) as [|y rb] eqn:R.
  - apply (f_equal (@rev _)) in R. rewrite rev_involutive in R. subst b. cbn. lia.
  - apply (f_equal (@rev _)) in R. rewrite rev_involutive in R. cbn in R. subst b.
    replace (a ++ x :: rev rb ++ [y]) with ((a ++ x :: rev rb) ++ [y]) in E
      by (rewrite <- app_assoc; reflexivity).
    apply app_inj_tail in E. destruct E as [E1 E2].
    specialize (P a x (rev rb) E1 N). rewrite app_length. cbn. lia.
Qed.

Lemma semaphore_sound : forall deadline l t code t' rest,
  forward l ->
  match take deadline t l with
  | None => Asleep
  | Some (got, t1, r) => leave (fun _ => if got then -1 else 0) t1 false r
  end = Returned code t' rest ->
  exists used, l = used ++ rest /\ t + span used = t' /\
    (code = 0 /\ deadline <= t' \/ code = -1 /\ noticed used) /\ prompt 1 used.
Proof.
  intros deadline l t code t' rest F H.
  destruct (take deadline t l) as [[[got t1] r]|] eqn:E; [|discriminate].
  apply take_sound in E. destruct E as [u [U1 [U2 [U3 U4]]]].
  apply leave_inv in H. destruct H as [m [M1 [M2 M3]]]. subst r l.
  exists (u ++ [m]). rewrite <- app_assoc. split; [reflexivity|].
  assert (SP : span (u ++ [m]) = span u + elapsed m).
  { unfold span. rewrite map_app. clear. induction u as [|x u IH]; cbn in *; [lia|].
    unfold script, span in *. rewrite IH. lia. }
  rewrite SP. split; [lia|].
  assert (EM : 0 <= elapsed m).
  { unfold forward in F. rewrite Forall_app in F. destruct F as [_ F].
    inversion F; subst; assumption. }
  split; [|apply prompt_leave; exact U3].
  destruct U4 as [[-> B]|[-> [B C]]].
  - right. split; [exact M3|]. destruct B as [x [X Y]]. exists x. split; [|exact Y].
    apply in_or_app. left. exact X.
  - left. split; [exact M3|lia].
Qed.

(** ** nRF52 *)

Lemma next_match_gt : forall now x, now < next_match now x.
Proof.
  intros now x. unfold next_match. pose proof (Z.mod_pos_bound (x - (now + 1)) two32 eq_refl). lia.
Qed.

(** The next match is never before a later value that is at most a period ahead. *)
Lemma next_match_ge : forall now x, x < now + two32 + 1 -> x <= next_match now x.
Proof.
  intros now x H. unfold next_match.
  pose proof (Z.mod_pos_bound (x - (now + 1)) two32 eq_refl) as B.
  destruct (Z.le_gt_cases x now) as [L|L]; [lia|].
  rewrite (Z.mod_small (x - (now + 1))) by lia. lia.
Qed.

Lemma next_match_exact : forall now x, now < x < now + two32 + 1 -> next_match now x = x.
Proof.
  intros now x H. unfold next_match. rewrite Z.mod_small by lia. lia.
Qed.

Lemma next_match_full : forall now, next_match now (now - 1) = now + 4294967295.
Proof.
  intros now. unfold next_match. replace (now - 1 - (now + 1)) with (-2) by lia.
  change (-2 mod two32) with 4294967294. lia.
Qed.

(** If the timer is not armed, the remaining duration reaches from the clock at least to
    the wake-up time; if it is armed for the last time, it fires late enough. *)
Definition nrf_inv (wakeup t duration : Z) (next : bool) (armed : option Z) : Prop :=
  match armed with
  | None => next = true /\ wakeup - duration <= clock_ns t
  | Some a => if next then wakeup - duration <= 1000 * a else wakeup / 1000 <= a
  end.

Lemma clock_us_mono : forall a b, a <= b -> clock_us a <= clock_us b.
Proof. intros a b H. unfold clock_us. apply Z.div_le_mono; lia. Qed.

Lemma div1000 : forall x k, x <= 1000 * k -> x / 1000 <= k.
Proof.
  intros x k H. replace k with (1000 * k / 1000) by (rewrite Z.mul_comm, Z.div_mul by lia; lia).
  apply Z.div_le_mono; lia.
Qed.

Lemma nrf_arm : forall wakeup t duration next armed d' n' a,
  nrf_inv wakeup t duration next armed ->
  match armed with
  | Some a => (duration, next, a)
  | None =>
      let curr := clock_us t in
      if LF_MAX_SLEEP_NS <? duration
      then (duration - LF_MAX_SLEEP_NS, next, next_match curr (curr - 1))
      else (duration, false, next_match curr (wakeup / 1000))
  end = (d', n', a) ->
  nrf_inv wakeup t d' n' (Some a).
Proof.
  intros wakeup t duration next armed d' n' a I H. destruct armed as [x|].
  - injection H as H1 H2 H3. subst. exact I.
  - destruct I as [I1 I2]. subst next. cbv zeta in H.
    destruct (Z.ltb_spec LF_MAX_SLEEP_NS duration) as [L|L].
    + injection H as H1 H2 H3. subst d' n' a. cbn [nrf_inv].
      rewrite next_match_full. unfold clock_ns in I2. unfold LF_MAX_SLEEP_NS. lia.
    + injection H as H1 H2 H3. subst d' n' a. cbn [nrf_inv].
      apply next_match_ge. unfold clock_ns, LF_MAX_SLEEP_NS in *.
      assert (wakeup / 1000 <= clock_us t + 4294967295) by (apply div1000; lia).
      unfold two32. lia.
Qed.

Lemma nrf_sound : forall wakeup l t duration next armed code t' rest,
  nrf_inv wakeup t duration next armed ->
  nrf_loop wakeup t duration next armed l = Returned code t' rest ->
  exists used, l = used ++ rest /\ t + span used = t' /\
    (code = 0 /\ wakeup / 1000 <= clock_us t' /\ ~ noticed used \/ code = -1 /\ noticed used) /\
    prompt 0 used.
Proof.
  intros wakeup. induction l as [|m l IH]; intros t duration next armed code t' rest I H; [discriminate|].
  cbn [nrf_loop] in H.
  destruct (match armed with Some a => (duration, next, a) | None => _ end) as [[d' n'] a] eqn:E.
  pose proof (nrf_arm _ _ _ _ _ _ _ _ I E) as I'. clear E I.
  destruct (notified m) eqn:N; cbn [negb andb] in H.
  - injection H as H1 H2 H3. subst. exists [m]. split; [reflexivity|].
    split; [rewrite span_cons; cbn; lia|]. split; [|apply prompt_short; cbn; lia].
    right. split; [reflexivity|apply noticed_head; exact N].
  - destruct (Z.leb_spec a (clock_us (t + elapsed m))) as [L|L]; cbn [negb] in H.
    + destruct n'; cbn [orb] in H.
      * apply IH in H.
        2:{ split; [reflexivity|]. unfold nrf_inv in I'. unfold clock_ns. lia. }
        destruct H as [u [U1 [U2 [U3 U4]]]]. subst l. exists (m :: u).
        split; [reflexivity|]. split; [rewrite span_cons; lia|].
        split; [|apply prompt_quiet; assumption].
        destruct U3 as [[A [B C]]|[A B]]; [left|right; split; [exact A|apply noticed_cons; exact B]].
        split; [exact A|split; [exact B|]]. intros [x [[X|X] Y]]; [subst; congruence|].
        apply C. exists x. split; assumption.
      * injection H as H1 H2 H3. subst. exists [m]. split; [reflexivity|].
        split; [rewrite span_cons; cbn; lia|]. split; [|apply prompt_short; cbn; lia].
        left. unfold nrf_inv in I'. split; [reflexivity|]. split; [lia|].
        intros [x [[X|[]] Y]]; subst; congruence.
    + rewrite orb_true_r in H. apply IH in H; [|exact I'].
      destruct H as [u [U1 [U2 [U3 U4]]]]. subst l. exists (m :: u).
      split; [reflexivity|]. split; [rewrite span_cons; lia|].
      split; [|apply prompt_quiet; assumption].
      destruct U3 as [[A [B C]]|[A B]]; [left|right; split; [exact A|apply noticed_cons; exact B]].
      split; [exact A|split; [exact B|]]. intros [x [[X|X] Y]]; [subst; congruence|].
      apply C. exists x. split; assumption.
Qed.

(** A sleep that needs the timer only once ends on time. *)
Lemma nrf_last_ends : forall wakeup l t duration,
  forward l ->
  (forall x, noticed l \/ x <= t + span l -> wakeup / 1000 <= clock_us x ->
   exists code t' rest, nrf_loop wakeup t duration false (Some (wakeup / 1000)) l = Returned code t' rest)
  \/ l = [].
Proof.
  intros wakeup. induction l as [|m l IH]; intros t duration F; [right; reflexivity|left].
  inversion F as [|? ? F1 F2]; subst. intros x H X. cbn [nrf_loop].
  destruct (notified m) eqn:N; cbn [negb andb]; [eexists; eexists; eexists; reflexivity|].
  destruct (Z.leb_spec (wakeup / 1000) (clock_us (t + elapsed m))) as [L|L]; cbn [negb orb];
    [eexists; eexists; eexists; reflexivity|].
  destruct (IH (t + elapsed m) duration F2) as [K|K].
  - apply (K x); [|exact X].
    destruct H as [[y [[Y|Y] Z]]|H]; [subst; congruence|left; exists y; split; assumption|].
    right. rewrite span_cons in H. lia.
  - subst l. destruct H as [[y [[Y|[]] Z]]|H]; [subst; congruence|].
    rewrite span_cons in H. cbn in H. exfalso.
    pose proof (clock_us_mono x (t + elapsed m) ltac:(lia)). lia.
Qed.

(** ** Zephyr counter *)

Lemma quot_sleep : forall wakeup t, wakeup - clock_ns t <= 1000 * Z.quot (wakeup - clock_ns t) 1000 + 999.
Proof.
  intros wakeup t. pose proof (Z.quot_rem' (wakeup - clock_ns t) 1000) as Q.
  pose proof (Z.rem_bound_abs (wakeup - clock_ns t) 1000 ltac:(lia)). lia.
Qed.

Lemma finish_inv : forall b t s l code t' rest,
  finish b t s l = Returned code t' rest ->
  code = 0 /\ rest = l /\
  t' = (if runtime_overhead_us b <? s then t + 1000 * (s - runtime_overhead_us b) else t).
Proof.
  intros b t s l code t' rest H. unfold finish in H.
  destruct (runtime_overhead_us b <? s).
  - remember (t + 1000 * (s - runtime_overhead_us b)) as x. injection H as H1 H2 H3.
    subst. repeat split.
  - injection H as H1 H2 H3. subst. repeat split.
Qed.

Lemma counter_sound : forall b wakeup l t armed code t' rest,
  board_ok b -> forward l ->
  counter_loop b wakeup t armed l = Returned code t' rest ->
  exists used, l = used ++ rest /\ t + span used <= t' /\
    (code = 0 /\ wakeup - 1000 * runtime_overhead_us b - 1000 < t' /\ ~ noticed used
     \/ code = -1 /\ noticed used) /\
    prompt 0 used.
Proof.
  intros b wakeup. induction l as [|m l IH]; intros t armed code t' rest B F H.
  - cbn [counter_loop] in H. destruct armed as [a|]; [discriminate|].
    destruct (_ <? _) eqn:L; [destruct (top_value b <? _); discriminate|].
    apply finish_inv in H. destruct H as [H1 [H2 H3]]. subst code rest t'.
    exists []. pose proof (quot_sleep wakeup t) as Q. pose proof (clock_ns_le t) as C.
    destruct B as [B1 [B2 [B3 B4]]]. split; [reflexivity|].
    destruct (Z.ltb_spec (runtime_overhead_us b) (Z.quot (wakeup - clock_ns t) 1000)) as [R|R];
      (split; [change (span []) with 0; lia|split; [left; split; [reflexivity|split; [lia|intros [x [[] _]]]]|apply prompt_nil]]).
  - inversion F as [|? ? F1 F2]; subst. cbn [counter_loop] in H.
    set (al := match armed with Some a => Some (Some a) | None => _ end) in H.
    destruct al as [[a|]|] eqn:E; [| |discriminate].
    + destruct (notified m) eqn:N.
      * injection H as H1 H2 H3. subst. exists [m]. split; [reflexivity|].
        split; [rewrite span_cons; cbn; lia|]. split; [|apply prompt_short; cbn; lia].
        right. split; [reflexivity|apply noticed_head; exact N].
      * apply IH in H; [|exact B|exact F2].
        destruct H as [u [U1 [U2 [U3 U4]]]]. subst l. exists (m :: u).
        split; [reflexivity|]. split; [rewrite span_cons; lia|].
        split; [|apply prompt_quiet; assumption].
        destruct U3 as [[A [D C]]|[A D]]; [left|right; split; [exact A|apply noticed_cons; exact D]].
        split; [exact A|split; [exact D|]]. intros [x [[X|X] Y]]; [subst; congruence|].
        apply C. exists x. split; assumption.
    + apply finish_inv in H. destruct H as [H1 [H2 H3]]. subst code rest t'.
      exists []. pose proof (quot_sleep wakeup t) as Q. pose proof (clock_ns_le t) as C.
      destruct B as [B1 [B2 [B3 B4]]]. split; [reflexivity|].
      destruct (Z.ltb_spec (runtime_overhead_us b) (Z.quot (wakeup - clock_ns t) 1000)) as [R|R];
        (split; [change (span []) with 0; lia|split; [left; split; [reflexivity|split; [lia|intros [x [[] _]]]]|apply prompt_nil]]).
Qed.

Lemma span_app : forall a b, span (a ++ b) = span a + span b.
Proof.
  induction a as [|m a IH]; intros b; [reflexivity|].
  cbn [app]. rewrite !span_cons, IH. lia.
Qed.

Lemma noticed_app : forall a b, noticed a -> noticed (a ++ b).
Proof. intros a b [x [I N]]. exists x. split; [apply in_or_app; left; exact I|exact N]. Qed.

Lemma alarm_time : forall b wakeup t s,
  board_ok b -> full_counter b ->
  s = Z.quot (wakeup - clock_ns t) 1000 -> wakeup_overhead_us b + min_sleep_us b < s ->
  0 <= alarm_ticks b s <= top_value b /\
  t + 1000 * alarm_ticks b s / ticks_per_us b <= wakeup + 2000.
Proof.
  intros b wakeup t s [B1 [B2 [B3 B4]]] [T E] S L. rewrite T. unfold alarm_ticks.
  assert (SW : 1000 * s <= wakeup - clock_ns t).
  { subst s. pose proof (Z.quot_rem' (wakeup - clock_ns t) 1000) as Q.
    assert (0 <= wakeup - clock_ns t).
    { destruct (Z.le_gt_cases 0 (wakeup - clock_ns t)) as [X|X]; [exact X|].
      assert (Z.quot (wakeup - clock_ns t) 1000 <= 0).
      { pose proof (Z.rem_nonpos (wakeup - clock_ns t) 1000 ltac:(lia) ltac:(lia)).
        pose proof (Z.rem_bound_abs (wakeup - clock_ns t) 1000 ltac:(lia)). lia. }
      lia. }
    pose proof (Z.rem_bound_pos (wakeup - clock_ns t) 1000 ltac:(lia) ltac:(lia)). lia. }
  pose proof (clock_ns_gt t) as C.
  set (k := ticks_per_us b) in *. set (w := wakeup_overhead_us b) in *.
  pose proof (Z.div_mod UINT_MAX k ltac:(lia)) as D.
  pose proof (Z.mod_pos_bound UINT_MAX k B4) as R.
  destruct (Z.ltb_spec s (epoch_us b)) as [X|X].
  - assert (SM : 0 <= k * (s - w) <= UINT_MAX) by (rewrite E in X; nia).
    rewrite Z.mod_small by (unfold two32, UINT_MAX in *; lia).
    split; [exact SM|].
    replace (1000 * (k * (s - w))) with (1000 * (s - w) * k) by ring.
    rewrite Z.div_mul by lia. lia.
  - split; [unfold UINT_MAX; lia|].
    assert (1000 * UINT_MAX / k < 1000 * (UINT_MAX / k + 1)).
    { apply Z.div_lt_upper_bound; [exact B4|]. nia. }
    rewrite E in X. lia.
Qed.

Lemma counter_ends : forall b wakeup m2 l t armed,
  board_ok b -> full_counter b -> forward l ->
  match armed with Some a => t < a <= wakeup + 2000 | None => True end ->
  noticed l \/ wakeup + 2000 <= t + span l ->
  exists code t' rest, counter_loop b wakeup t armed (l ++ [m2]) = Returned code t' rest.
Proof.
  intros b wakeup m2. induction l as [|m l IH]; intros t armed B T F A H.
  - destruct H as [[x [[] _]]|H]. change (span []) with 0 in H.
    destruct armed as [a|]; [lia|].
    assert (Q : Z.quot (wakeup - clock_ns t) 1000 <= 0).
    { pose proof (clock_ns_gt t). pose proof (Z.quot_rem' (wakeup - clock_ns t) 1000).
      pose proof (Z.rem_nonpos (wakeup - clock_ns t) 1000 ltac:(lia) ltac:(lia)).
      pose proof (Z.rem_bound_abs (wakeup - clock_ns t) 1000 ltac:(lia)). lia. }
    cbn [app counter_loop].
    destruct (Z.ltb_spec (wakeup_overhead_us b + min_sleep_us b)
                (Z.quot (wakeup - clock_ns t) 1000)) as [L|L]; [destruct B; lia|].
    unfold finish. eexists; eexists; eexists; reflexivity.
  - inversion F as [|? ? F1 F2]; subst. cbn [app counter_loop].
    assert (H' : notified m = false -> noticed l \/ wakeup + 2000 <= t + elapsed m + span l).
    { intros N. destruct H as [[x [[X|X] Y]]|H]; [subst; congruence|left; exists x; split; assumption|].
      right. rewrite span_cons in H. lia. }
    assert (Wait : forall a, a <= wakeup + 2000 ->
      exists code t' rest,
        (if notified m then Returned (-1) (t + elapsed m) (l ++ [m2])
         else counter_loop b wakeup (t + elapsed m) (if a <=? t + elapsed m then None else Some a) (l ++ [m2])) =
        Returned code t' rest).
    { intros a LA. destruct (notified m) eqn:N; [eexists; eexists; eexists; reflexivity|].
      apply IH; [exact B|exact T|exact F2| |apply H'; reflexivity].
      destruct (Z.leb_spec a (t + elapsed m)) as [X|X]; [exact Logic.I|lia]. }
    destruct armed as [a|]; [apply Wait; lia|].
    destruct (Z.ltb_spec (wakeup_overhead_us b + min_sleep_us b)
                (Z.quot (wakeup - clock_ns t) 1000)) as [L|L].
    + destruct (alarm_time b wakeup t _ B T eq_refl L) as [A1 A2].
      destruct (Z.ltb_spec (top_value b) (alarm_ticks b (Z.quot (wakeup - clock_ns t) 1000))) as [X|X]; [lia|].
      apply Wait. exact A2.
    + unfold finish. eexists; eexists; eexists; reflexivity.
Qed.
