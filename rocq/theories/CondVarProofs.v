(** The condition variables of the RP2040 refine a monitor. *)
From Verif Require Import Base CondVar CondVarSpec.

Definition abs (p : place) (permit : bool) : mode :=
  match p with
  | Running => Active
  | Acquiring => if permit then Woken else Waiting
  | Relocking => Woken
  | TimedWaiting => Active
  end.

Definition related (s : state) (m : monitor) : Prop :=
  holder m = owner s /\ depth m = count s /\
  (owner s = None <-> count s = 0%nat) /\
  (forall k, owner s = Some k -> at_ s k = Running) /\
  (forall k, at_ s k <> TimedWaiting) /\
  (forall k, mode_of m k = abs (at_ s k) (notifs s k)).

Lemma related0 : related state0 monitor0.
Proof.
  split; [reflexivity|]. split; [reflexivity|]. split; [split; reflexivity|].
  split; [discriminate|]. split; [discriminate|reflexivity].
Qed.

Lemma set_same : forall k A (f : bool -> A) a, set k f a k = a.
Proof. intros. unfold set. rewrite Bool.eqb_reflx. reflexivity. Qed.

Lemma set_other : forall j k A (f : bool -> A) a, j <> k -> set k f a j = f j.
Proof. intros j k A f a D. unfold set. destruct (Bool.eqb_spec j k); [contradiction|reflexivity]. Qed.

Lemma upd_same : forall k A (f : bool -> A) a, upd k f a k = a.
Proof. intros. unfold upd. rewrite Bool.eqb_reflx. reflexivity. Qed.

Lemma upd_other : forall j k A (f : bool -> A) a, j <> k -> upd k f a j = f j.
Proof. intros j k A f a D. unfold upd. destruct (Bool.eqb_spec j k); [contradiction|reflexivity]. Qed.

Lemma running_at : forall s k, running s k = true -> at_ s k = Running.
Proof. intros s k. unfold running. destruct (at_ s k); [reflexivity|discriminate..]. Qed.

Lemma enter_inv : forall s k s1, enter s k = Some s1 ->
  (owner s = None \/ owner s = Some k) /\ s1 = mkState (Some k) (S (count s)) (notifs s) (at_ s).
Proof.
  intros s k s1. unfold enter, free_for. destruct (owner s) as [j|].
  - destruct (Bool.eqb_spec j k); [|discriminate]. intros H. injection H as H. subst.
    split; [right; reflexivity|reflexivity].
  - intros H. injection H as H. subst. split; [left; reflexivity|reflexivity].
Qed.

Lemma leave_inv : forall s k s1, leave s k = Some s1 ->
  exists n, owner s = Some k /\ count s = S n /\
    s1 = mkState (if Nat.eqb n 0 then None else Some k) n (notifs s) (at_ s).
Proof.
  intros s k s1. unfold leave. destruct (owner s) as [j|]; [|discriminate].
  destruct (count s) as [|n]; [discriminate|]. destruct (Bool.eqb_spec j k); [|discriminate].
  intros H. injection H as H. subst. exists n. split; [reflexivity|split; [reflexivity|]].
  destruct n; reflexivity.
Qed.

Lemma mrun_app : forall m l1 m1 l2 m2, mrun m l1 m1 -> mrun m1 l2 m2 -> mrun m (l1 ++ l2) m2.
Proof.
  intros m l1 m1 l2 m2 H. revert l2 m2. induction H; intros l2 m3 K; cbn [app].
  - exact K.
  - eapply mr_silent; [eassumption|]. apply IHmrun. exact K.
  - eapply mr_event; [eassumption|]. apply IHmrun. exact K.
Qed.

Lemma step_simulates : forall s m a s1,
  related s m -> untimed a -> flat s a -> step s a = Some s1 ->
  exists m1, mrun m (visible a) m1 /\ related s1 m1.
Proof.
  intros s m a s1 [R1 [R2 [R3 [R4 [R5 R6]]]]] U FL H.
  destruct a as [k|k| |k|k|k|k|k late r]; cbn [step visible] in *; try contradiction.
  - (* Lock *)
    destruct (running s k) eqn:Rn; [|discriminate]. apply running_at in Rn.
    apply enter_inv in H. destruct H as [O E]. subst s1.
    exists (mkMonitor (Some k) (S (depth m)) (mode_of m)). split.
    + eapply mr_event; [|apply mr_nil]. apply m_lock.
      * rewrite R6, Rn. reflexivity.
      * rewrite R1. exact O.
    + split; [reflexivity|]. split; [cbn; congruence|].
      split; [split; discriminate|]. split; [cbn; intros j J; congruence|].
      split; [exact R5|exact R6].
  - (* Unlock *)
    destruct (running s k) eqn:Rn; [|discriminate]. apply running_at in Rn.
    apply leave_inv in H. destruct H as [n [O [C E]]]. subst s1.
    exists (mkMonitor (if Nat.eqb n 0 then None else Some k) n (mode_of m)). split.
    + eapply mr_event; [|apply mr_nil]. apply m_unlock.
      * rewrite R6, Rn. reflexivity.
      * congruence.
      * congruence.
    + split; [reflexivity|]. split; [reflexivity|]. cbn [owner count at_ notifs mode_of].
      split; [destruct n; cbn; split; (reflexivity || discriminate)|].
      split; [intros j J; destruct n; cbn in J; congruence|]. split; [exact R5|exact R6].
  - (* Notify *)
    injection H as H. subst s1.
    eexists. split; [eapply mr_event; [apply m_notify|apply mr_nil]|].
    split; [exact R1|]. split; [exact R2|]. cbn [owner count at_ notifs mode_of].
    split; [exact R3|]. split; [exact R4|]. split; [exact R5|].
    intros j. rewrite R6. destruct (at_ s j); cbn; [reflexivity| |reflexivity|reflexivity].
    destruct (notifs s j); reflexivity.
  - (* WaitBegin *)
    destruct (running s k) eqn:Rn; [|discriminate]. apply running_at in Rn.
    destruct (leave s k) as [s2|] eqn:L; [|discriminate]. cbn [option_map] in H.
    injection H as H. subst s1. apply leave_inv in L. destruct L as [n [O [C E]]].
    cbn [flat] in FL. rewrite FL in C. injection C as C. subst n s2.
    set (m1 := mkMonitor None 0 (upd k (mode_of m) Waiting)).
    assert (W : mstep m (Some (MWait k)) m1).
    { apply m_wait; [rewrite R6, Rn; reflexivity|congruence|congruence]. }
    assert (REL : forall m2, holder m2 = None -> depth m2 = 0%nat ->
      mode_of m2 k = (if notifs s k then Woken else Waiting) ->
      (forall j, j <> k -> mode_of m2 j = mode_of m j) ->
      related (move (mkState None 0 (notifs s) (at_ s)) k Acquiring) m2).
    { intros m2 H2 D2 M2 O2. split; [exact H2|]. split; [exact D2|].
      cbn [move owner count at_ notifs]. split; [split; reflexivity|]. split; [discriminate|].
      split.
      - intros j. destruct (Bool.bool_dec j k) as [Q|Q];
          [subst; rewrite set_same; discriminate|rewrite set_other by exact Q; apply R5].
      - intros j. destruct (Bool.bool_dec j k) as [Q|Q].
        + subst j. rewrite set_same. exact M2.
        + rewrite set_other by exact Q. rewrite O2 by exact Q. apply R6. }
    cbn [Nat.eqb]. destruct (notifs s k) eqn:N.
    + exists (mkMonitor None 0 (upd k (mode_of m1) Woken)). split.
      * eapply mr_event; [exact W|]. eapply mr_silent; [|apply mr_nil].
        apply (m_spurious m1 k). unfold m1. cbn [mode_of]. apply upd_same.
      * apply REL; [reflexivity|reflexivity|cbn [mode_of]; apply upd_same|].
        intros j J. cbn [mode_of m1]. rewrite !upd_other by exact J. reflexivity.
    + exists m1. split; [eapply mr_event; [exact W|apply mr_nil]|].
      apply REL; [reflexivity|reflexivity|cbn [mode_of m1]; apply upd_same|].
      intros j J. cbn [mode_of m1]. rewrite upd_other by exact J. reflexivity.
  - (* WaitAcquire *)
    destruct (at_ s k) eqn:A; try discriminate. unfold acquire in H.
    destruct (notifs s k) eqn:N; [|discriminate]. cbn [option_map] in H. injection H as H. subst s1.
    exists m. split; [apply mr_nil|].
    split; [exact R1|]. split; [exact R2|]. cbn [move owner count at_ notifs].
    split; [exact R3|]. split.
    + intros j J. destruct (Bool.bool_dec j k) as [Q|Q].
      * subst j. specialize (R4 k J). congruence.
      * rewrite set_other by exact Q. apply R4. exact J.
    + split.
      * intros j. destruct (Bool.bool_dec j k) as [Q|Q];
          [subst; rewrite set_same; discriminate|rewrite set_other by exact Q; apply R5].
      * intros j. destruct (Bool.bool_dec j k) as [Q|Q].
        -- subst j. rewrite !set_same. rewrite R6, A, N. reflexivity.
        -- rewrite !set_other by exact Q. apply R6.
  - (* WaitReturn *)
    destruct (at_ s k) eqn:A; try discriminate.
    destruct (enter s k) as [s2|] eqn:E; [|discriminate]. cbn [option_map] in H.
    injection H as H. subst s1. apply enter_inv in E. destruct E as [O E]. subst s2.
    assert (ON : owner s = None).
    { destruct O as [O|O]; [exact O|]. specialize (R4 k O). congruence. }
    assert (C0 : count s = 0%nat) by (apply R3; exact ON).
    exists (mkMonitor (Some k) 1 (upd k (mode_of m) Active)). split.
    + eapply mr_event; [|apply mr_nil]. apply m_return; [rewrite R6, A; reflexivity|congruence].
    + split; [reflexivity|]. split; [cbn [move count]; rewrite C0; reflexivity|].
      cbn [move owner count at_ notifs mode_of].
      split; [split; discriminate|]. split.
      * intros j J. injection J as J. subst j. apply set_same.
      * split.
        -- intros j. destruct (Bool.bool_dec j k) as [Q|Q];
             [subst; rewrite set_same; discriminate|rewrite set_other by exact Q; apply R5].
        -- intros j. destruct (Bool.bool_dec j k) as [Q|Q].
           ++ subst j. rewrite set_same, upd_same. reflexivity.
           ++ rewrite set_other, upd_other by exact Q. apply R6.
Qed.

Lemma run_simulates : forall l s m s1,
  related s m -> flat_run s l -> run s l = Some s1 ->
  exists m1, mrun m (flat_map visible l) m1 /\ related s1 m1.
Proof.
  induction l as [|a l IH]; intros s m s1 R F H.
  - cbn in H. injection H as H. subst. exists m. split; [apply mr_nil|exact R].
  - cbn [run flat_run] in H, F. destruct F as [U [FL F]].
    destruct (step s a) as [s2|] eqn:E; [|discriminate].
    destruct (step_simulates s m a s2 R U FL E) as [m2 [M2 R2]].
    destruct (IH s2 m2 s1 R2 F H) as [m1 [M1 R1]]. exists m1. split; [|exact R1].
    cbn [flat_map]. eapply mrun_app; eassumption.
Qed.

Lemma woken_returns : forall s m k,
  related s m -> mode_of m k = Woken -> owner s = None ->
  exists l s1, run s (l ++ [WaitReturn k]) = Some s1 /\ (l = [] \/ l = [WaitAcquire k]) /\
    owner s1 = Some k.
Proof.
  intros s m k [R1 [R2 [R3 [R4 [R5 R6]]]]] W O. rewrite R6 in W.
  destruct (at_ s k) eqn:A; cbn [abs] in W; try discriminate.
  - destruct (notifs s k) eqn:N; [|discriminate]. exists [WaitAcquire k]. eexists.
    split; [|split; [right; reflexivity|]].
    + cbn [app run step]. rewrite A. unfold acquire. rewrite N. cbn [option_map].
      unfold enter, free_for. cbn [move at_ owner count notifs]. rewrite set_same, O.
      cbn [option_map]. reflexivity.
    + reflexivity.
  - exists []. eexists. split; [|split; [left; reflexivity|]].
    + cbn [app run step]. rewrite A. unfold enter, free_for. rewrite O. cbn [option_map]. reflexivity.
    + reflexivity.
Qed.

(** ** The timed wait *)

Lemma timed_keeps : forall l s k s1,
  owner s = Some k -> at_ s k = TimedWaiting -> (forall late r, ~ In (TimedReturn k late r) l) ->
  run s l = Some s1 -> owner s1 = Some k /\ at_ s1 k = TimedWaiting.
Proof.
  induction l as [|a l IH]; intros s k s1 O A N H.
  - cbn in H. injection H as H. subst. split; assumption.
  - cbn [run] in H. destruct (step s a) as [s2|] eqn:E; [|discriminate].
    assert (K : owner s2 = Some k /\ at_ s2 k = TimedWaiting).
    { destruct a as [j|j| |j|j|j|j|j late r]; cbn [step] in E.
      - destruct (running s j) eqn:Rn; [|discriminate]. apply running_at in Rn.
        apply enter_inv in E. destruct E as [[X|X] _]; [congruence|].
        rewrite O in X. injection X as X. subst j. congruence.
      - destruct (running s j) eqn:Rn; [|discriminate]. apply running_at in Rn.
        apply leave_inv in E. destruct E as [n [X _]]. rewrite O in X. injection X as X. subst j. congruence.
      - injection E as E. subst s2. split; assumption.
      - destruct (running s j) eqn:Rn; [|discriminate]. apply running_at in Rn.
        destruct (leave s j) as [s3|] eqn:L; [|discriminate].
        apply leave_inv in L. destruct L as [n [X _]]. rewrite O in X. injection X as X. subst j. congruence.
      - destruct (at_ s j) eqn:B; try discriminate. unfold acquire in E.
        destruct (notifs s j); [|discriminate]. cbn [option_map] in E. injection E as E. subst s2.
        split; [exact O|]. cbn [move at_]. rewrite set_other; [exact A|]. intros Q. subst. congruence.
      - destruct (at_ s j) eqn:B; try discriminate.
        destruct (enter s j) as [s3|] eqn:L; [|discriminate].
        apply enter_inv in L. destruct L as [[X|X] _]; [congruence|].
        rewrite O in X. injection X as X. subst j. congruence.
      - destruct (running s j) eqn:Rn; [|discriminate]. apply running_at in Rn.
        injection E as E. subst s2. split; [exact O|]. cbn [move at_].
        rewrite set_other; [exact A|]. intros Q. subst. congruence.
      - assert (Q : k <> j) by (intros Q; subst; apply (N late r); left; reflexivity).
        destruct (at_ s j) eqn:B; try discriminate. unfold acquire in E.
        destruct (notifs s j).
        + destruct (r =? 0); [|discriminate]. injection E as E. subst s2.
          split; [exact O|]. cbn [move at_]. rewrite set_other by exact Q. exact A.
        + destruct (late && (r =? LF_TIMEOUT)); [|discriminate]. injection E as E. subst s2.
          split; [exact O|]. cbn [move at_]. rewrite set_other by exact Q. exact A. }
    destruct K as [K1 K2]. apply (IH s2 k s1 K1 K2); [|exact H].
    intros late r X. apply (N late r). right. exact X.
Qed.

(** ** Notifications *)

Definition waiting_at (s : state) (k : bool) : Prop := at_ s k = Acquiring \/ at_ s k = Relocking.
Definition called (s : state) (k : bool) : Prop :=
  at_ s k = Acquiring /\ notifs s k = true \/ at_ s k = Relocking.

Lemma step_at : forall s a s1 k,
  step s a = Some s1 -> waiting_at s k -> a <> WaitReturn k ->
  (at_ s1 k = at_ s k /\ (notifs s k = true -> notifs s1 k = true) /\ (a = Notify -> notifs s1 k = true)) \/
  (at_ s k = Acquiring /\ at_ s1 k = Relocking).
Proof.
  intros s a s1 k E W NR.
  assert (NRun : at_ s k <> Running) by (destruct W as [W|W]; congruence).
  assert (NT : at_ s k <> TimedWaiting) by (destruct W as [W|W]; congruence).
  destruct a as [j|j| |j|j|j|j|j late r]; cbn [step] in E.
  - destruct (running s j); [|discriminate]. apply enter_inv in E. destruct E as [_ E]. subst s1.
    left. split; [reflexivity|]. split; [intros X; exact X|discriminate].
  - destruct (running s j); [|discriminate]. apply leave_inv in E. destruct E as [n [_ [_ E]]]. subst s1.
    left. split; [reflexivity|]. split; [intros X; exact X|discriminate].
  - injection E as E. subst s1. left. split; [reflexivity|]. split; reflexivity.
  - destruct (running s j) eqn:Rn; [|discriminate]. apply running_at in Rn.
    destruct (leave s j) as [s3|] eqn:L; [|discriminate]. apply leave_inv in L.
    destruct L as [n [_ [_ L]]]. subst s3. cbn [option_map] in E. injection E as E. subst s1.
    left. cbn [move at_ notifs]. rewrite set_other by (intros Q; subst; contradiction).
    split; [reflexivity|]. split; [intros X; exact X|discriminate].
  - destruct (at_ s j) eqn:B; try discriminate. unfold acquire in E.
    destruct (notifs s j) eqn:N; [|discriminate]. cbn [option_map] in E. injection E as E. subst s1.
    cbn [move at_ notifs]. destruct (Bool.bool_dec k j) as [Q|Q].
    + subst j. right. split; [exact B|apply set_same].
    + left. rewrite !set_other by exact Q. split; [reflexivity|]. split; [intros X; exact X|discriminate].
  - destruct (at_ s j) eqn:B; try discriminate.
    destruct (enter s j) as [s3|] eqn:L; [|discriminate]. apply enter_inv in L.
    destruct L as [_ L]. subst s3. cbn [option_map] in E. injection E as E. subst s1.
    assert (Q : k <> j) by (intros Q; subst; apply NR; reflexivity).
    left. cbn [move at_ notifs]. rewrite set_other by exact Q.
    split; [reflexivity|]. split; [intros X; exact X|discriminate].
  - destruct (running s j) eqn:Rn; [|discriminate]. apply running_at in Rn.
    injection E as E. subst s1. left. cbn [move at_ notifs].
    rewrite set_other by (intros Q; subst; contradiction).
    split; [reflexivity|]. split; [intros X; exact X|discriminate].
  - destruct (at_ s j) eqn:B; try discriminate.
    assert (Q : k <> j) by (intros Q; subst; contradiction). unfold acquire in E.
    destruct (notifs s j).
    + destruct (r =? 0); [|discriminate]. injection E as E. subst s1. left. cbn [move at_ notifs].
      rewrite !set_other by exact Q. split; [reflexivity|]. split; [intros X; exact X|discriminate].
    + destruct (late && (r =? LF_TIMEOUT)); [|discriminate]. injection E as E. subst s1. left.
      cbn [move at_ notifs]. rewrite set_other by exact Q.
      split; [reflexivity|]. split; [intros X; exact X|discriminate].
Qed.

Lemma called_kept : forall l s s1 k,
  run s l = Some s1 -> called s k -> ~ In (WaitReturn k) l -> called s1 k.
Proof.
  induction l as [|a l IH]; intros s s1 k H C N.
  - cbn in H. injection H as H. subst. exact C.
  - cbn [run] in H. destruct (step s a) as [s2|] eqn:E; [|discriminate].
    apply (IH s2 s1 k H); [|intros X; apply N; right; exact X].
    assert (W : waiting_at s k) by (destruct C as [[C _]|C]; [left|right]; exact C).
    destruct (step_at s a s2 k E W) as [[A [B _]]|[A B]].
    + intros Q. apply N. left. exact Q.
    + destruct C as [[C1 C2]|C]; [left; split; [congruence|apply B; exact C2]|right; congruence].
    + right. exact B.
Qed.

Lemma waiting_called : forall l s s1 k,
  run s l = Some s1 -> waiting_at s k -> In Notify l -> ~ In (WaitReturn k) l -> called s1 k.
Proof.
  induction l as [|a l IH]; intros s s1 k H W I N; [destruct I|].
  cbn [run] in H. destruct (step s a) as [s2|] eqn:E; [|discriminate].
  assert (NL : ~ In (WaitReturn k) l) by (intros X; apply N; right; exact X).
  destruct (step_at s a s2 k E W) as [[A [B C]]|[A B]].
  - intros Q. apply N. left. exact Q.
  - destruct I as [I|I].
    + apply (called_kept l s2 s1 k H); [|exact NL].
      destruct W as [W|W]; [left; split; [congruence|exact (C I)]|right; congruence].
    + apply (IH s2 s1 k H); [destruct W as [W|W]; [left|right]; congruence|exact I|exact NL].
  - apply (called_kept l s2 s1 k H); [right; exact B|exact NL].
Qed.

Lemma called_returns : forall s k,
  called s k -> owner s = None ->
  exists l s1, run s (l ++ [WaitReturn k]) = Some s1 /\ (l = [] \/ l = [WaitAcquire k]) /\
    owner s1 = Some k.
Proof.
  intros s k [[A N]|A] O.
  - exists [WaitAcquire k]. eexists. split; [|split; [right; reflexivity|]].
    + cbn [app run step]. rewrite A. unfold acquire. rewrite N. cbn [option_map].
      unfold enter, free_for. cbn [move at_ owner count notifs]. rewrite set_same, O.
      cbn [option_map]. reflexivity.
    + reflexivity.
  - exists []. eexists. split; [|split; [left; reflexivity|]].
    + cbn [app run step]. rewrite A. unfold enter, free_for. rewrite O. cbn [option_map]. reflexivity.
    + reflexivity.
Qed.

Lemma run_app : forall a s b, run s (a ++ b) = match run s a with Some s1 => run s1 b | None => None end.
Proof.
  induction a as [|x a IH]; intros s b; [reflexivity|]. cbn [app run].
  destruct (step s x); [apply IH|reflexivity].
Qed.

(** ** A notification wakes a core at most once *)
Definition credit (k : bool) (s : state) : nat :=
  ((match at_ s k with Relocking => 1 | _ => 0 end) + (if notifs s k then 1 else 0))%nat.

Lemma set_at : forall k j A (f : bool -> A) a, set k f a j = if Bool.eqb j k then a else f j.
Proof. reflexivity. Qed.

Lemma credit_step : forall k s a s1,
  step s a = Some s1 ->
  ((if wakes k a then 1 else 0) + credit k s1 <= credit k s + (if notifies a then 1 else 0))%nat.
Proof.
  intros k s a s1 H. unfold credit.
  destruct a as [j|j| |j|j|j|j|j late r]; cbn [step wakes notifies] in *.
  - destruct (running s j); [|discriminate]. unfold enter in H. destruct (free_for s j); [|discriminate].
    injection H as <-. cbn [at_ notifs]. destruct (at_ s k), (notifs s k); cbn; lia.
  - destruct (running s j); [|discriminate]. unfold leave in H. destruct (owner s); [|discriminate].
    destruct (count s); [discriminate|]. destruct (Bool.eqb b j); [|discriminate].
    injection H as <-. cbn [at_ notifs]. destruct (at_ s k), (notifs s k); cbn; lia.
  - injection H as <-. cbn [at_ notifs]. destruct (at_ s k), (notifs s k); cbn; lia.
  - destruct (running s j); [|discriminate]. unfold leave in H. destruct (owner s); [|discriminate].
    destruct (count s); [discriminate|]. destruct (Bool.eqb b j); [|discriminate].
    cbn [option_map] in H. injection H as <-. cbn [at_ notifs move]. rewrite set_at.
    destruct (Bool.eqb k j), (at_ s k), (notifs s k); cbn; lia.
  - destruct (at_ s j) eqn:A; try discriminate. unfold acquire in H.
    destruct (notifs s j) eqn:N; [|discriminate]. cbn [option_map] in H. injection H as <-.
    cbn [at_ notifs move]. rewrite !set_at. destruct (Bool.eqb_spec k j) as [E|D].
    + subst k. rewrite A, N. cbn. lia.
    + destruct (at_ s k), (notifs s k); cbn; lia.
  - destruct (at_ s j) eqn:A; try discriminate. unfold enter in H.
    destruct (free_for s j); [|discriminate]. cbn [option_map] in H. injection H as <-.
    cbn [at_ notifs move]. rewrite !set_at. destruct (Bool.eqb_spec k j) as [E|D].
    + subst k. rewrite A, Bool.eqb_reflx. destruct (notifs s j); cbn; lia.
    + destruct (Bool.eqb_spec j k); [congruence|]. destruct (at_ s k), (notifs s k); cbn; lia.
  - destruct (running s j) eqn:A; [|discriminate]. injection H as <-. cbn [at_ notifs move]. rewrite set_at.
    destruct (Bool.eqb k j), (at_ s k), (notifs s k); cbn; lia.
  - destruct (at_ s j) eqn:A; try discriminate. unfold acquire in H. destruct (notifs s j) eqn:N.
    + destruct (Z.eqb_spec r 0); [|discriminate]. injection H as <-. cbn [at_ notifs move]. rewrite !set_at.
      destruct (Bool.eqb_spec k j) as [E|D].
      * subst k. rewrite A, N, Bool.eqb_reflx. cbn. lia.
      * destruct (Bool.eqb_spec j k); [congruence|]. destruct (at_ s k), (notifs s k); cbn; lia.
    + destruct late; [|discriminate]. destruct (Z.eqb_spec r LF_TIMEOUT) as [->|]; [|discriminate].
      injection H as <-. cbn [at_ notifs move]. rewrite !set_at.
      destruct (Bool.eqb_spec k j) as [E|D].
      * subst k. rewrite A, N, Bool.eqb_reflx. cbn. lia.
      * destruct (Bool.eqb_spec j k); [congruence|]. destruct (at_ s k), (notifs s k); cbn; lia.
Qed.

Lemma credit_run : forall k l s s1,
  run s l = Some s1 -> (how_many (wakes k) l + credit k s1 <= credit k s + how_many notifies l)%nat.
Proof.
  intros k l. induction l as [|a l IH]; intros s s1 H.
  - injection H as <-. unfold how_many. cbn. lia.
  - cbn [run] in H. destruct (step s a) as [s2|] eqn:E; [|discriminate]. apply IH in H.
    apply (credit_step k) in E. unfold how_many in *. cbn [filter].
    destruct (wakes k a), (notifies a); cbn [length]; lia.
Qed.
