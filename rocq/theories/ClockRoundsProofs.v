(** Proofs about clock synchronization at runtime. *)
From Verif Require Import Base Net NetSpec NetProofs Join JoinProofs ClockRounds ClockRoundsSpec.
Local Open Scope Z_scope.

Lemma fupd_same {A} (m : nat -> A) k v : fupd m k v k = v.
Proof. unfold fupd. rewrite Nat.eqb_refl. reflexivity. Qed.
Lemma fupd_other {A} (m : nat -> A) k v x : x <> k -> fupd m k v x = m x.
Proof. intros H. unfold fupd. destruct (Nat.eqb_spec x k); [contradiction|reflexivity]. Qed.

(** ** The states of a federate between two exchanges. *)
Definition msg1 (t : Z) := timed MSG_TYPE_CLOCK_SYNC_T1 t.
Definition msg3 (f : nat) := MSG_TYPE_CLOCK_SYNC_T3 :: encode_int32 (Z.of_nat f).
Definition msg4 (t : Z) := timed MSG_TYPE_CLOCK_SYNC_T4 t.
Definition msg5 (t : Z) := timed MSG_TYPE_CLOCK_SYNC_CODED_PROBE t.
Inductive settled : fed_mode -> list (list Z) -> list (Z * Z * Z) -> Prop :=
| s_idle : settled WaitT1 [] []
| s_t4 t1 t4 t5 : in_int64 t4 -> in_int64 t5 -> settled (WaitT4 t1) [msg4 t4; msg5 t5] [(t1, t4, t5)]
| s_probe t1 t4 t5 : in_int64 t5 -> settled (WaitProbe t1 t4 []) [msg5 t5] [(t1, t4, t5)].
Inductive asked (t1 : Z) : fed_mode -> list (list Z) -> list (Z * Z * Z) -> Prop :=
| a_intro m q p : in_int64 t1 -> settled m q p -> asked t1 m (q ++ [msg1 t1]) p.

Definition fed_ok (s : static) (st : state) (g : nat) : Prop :=
  if enabled s g then
    exists pend, with_fed g (c_done st) = f_done (feds st g) ++ pend /\
    match phase_of st with
    | Reading f _ t1 _ _ _ =>
      if Nat.eqb g f then
        match to_coord st with
        | [] => asked t1 (f_mode (feds st g)) (f_inbox (feds st g)) pend
        | _ => f_mode (feds st g) = WaitT4 t1 /\ f_inbox (feds st g) = [] /\ pend = []
        end
      else settled (f_mode (feds st g)) (f_inbox (feds st g)) pend
    | _ => settled (f_mode (feds st g)) (f_inbox (feds st g)) pend
    end
  else f_inbox (feds st g) = [].
Definition phase_ok (s : static) (st : state) : Prop :=
  match phase_of st with
  | Turn todo any => to_coord st = [] /\ (length todo <= n s)%nat /\ (forall g, In g todo -> (g < n s)%nat) /\ (any = true \/ exists p, In p todo /\ enabled s p = true)
  | Reading f k _ part todo any =>
    (to_coord st = [] \/ to_coord st = [msg3 f]) /\ (length todo <= n s)%nat /\ (forall g, In g todo -> (g < n s)%nat) /\ (f < n s)%nat /\ enabled s f = true /\ k = 5%nat /\ part = []
  | Finished => False
  end.
Record Inv (s : static) (st : state) : Prop := {
  I_conn : forall g, connected st g = true;
  I_phase : phase_ok s st;
  I_feds : forall g, (g < n s)%nat -> fed_ok s st g }.

(** ** The measure of the work that remains in a round. *)
Definition cost (x : fed) : nat := match f_mode x with WaitT4 _ => if (2 <=? length (f_inbox x))%nat then 2 else 0 | WaitProbe _ _ _ => 1 | _ => 0 end.
Definition total (l : list nat) (m : nat -> fed) : nat := list_sum (map (fun g => cost (m g)) l).
Lemma cost_le x : (cost x <= 2)%nat.
Proof. unfold cost. destruct (f_mode x); try lia. destruct (2 <=? length (f_inbox x))%nat; lia. Qed.
Lemma total_le l m : (total l m <= 2 * length l)%nat.
Proof. unfold total. induction l as [|g l IH]; cbn [map list_sum fold_right length]; [lia|]. unfold list_sum in IH. pose proof (cost_le (m g)). lia. Qed.
Lemma total_out l m f v : ~ In f l -> total l (fupd m f v) = total l m.
Proof.
  unfold total. induction l as [|g l IH]; intros H; [reflexivity|]. cbn [map list_sum fold_right]. unfold list_sum in IH. rewrite IH by (intros X; apply H; right; exact X).
  rewrite fupd_other; [reflexivity|]. intros ->. apply H. left. reflexivity.
Qed.
Lemma total_upd l m f v : NoDup l -> In f l -> (total l (fupd m f v) + cost (m f) = total l m + cost v)%nat.
Proof.
  intros D. induction D as [|g l N D IH]; intros F; [destruct F|]. change (total (g :: l) (fupd m f v)) with (cost (fupd m f v g) + total l (fupd m f v))%nat. change (total (g :: l) m) with (cost (m g) + total l m)%nat.
  destruct (Nat.eq_dec g f) as [->|ne].
  - rewrite fupd_same, total_out by assumption. lia.
  - rewrite fupd_other by assumption. destruct F as [F|F]; [contradiction|]. specialize (IH F). lia.
Qed.
Definition mu (s : static) (st : state) : nat :=
  match phase_of st with
  | Turn todo _ => 5 * length todo
  | Reading _ _ _ _ todo _ => 5 * length todo + match to_coord st with [] => 4 | _ => 3 end
  | Finished => 0
  end + total (seq 0 (n s)) (feds st).
Lemma total_set s m f v : (f < n s)%nat -> (total (seq 0 (n s)) (fupd m f v) + cost (m f) = total (seq 0 (n s)) m + cost v)%nat.
Proof. intros L. apply total_upd; [apply seq_NoDup|]. apply in_seq. lia. Qed.

(** ** Reading the messages. *)
Lemma extract32_head big x v : in_int32 v -> extract_int32 big (x :: encode_int32 v) 1 = Ok v.
Proof. intros H. pose proof (extract_int32_at big [x] [] v H) as X. rewrite app_nil_r in X. exact X. Qed.
Lemma with_fed_other f g l x : g <> f -> with_fed g (l ++ [(f, x)]) = with_fed g l.
Proof. intros H. unfold with_fed. rewrite filter_app. cbn [filter fst]. destruct (Nat.eqb_spec f g); [congruence|]. rewrite app_nil_r. reflexivity. Qed.
Lemma with_fed_same f l x : with_fed f (l ++ [(f, x)]) = with_fed f l ++ [x].
Proof. unfold with_fed. rewrite filter_app, map_app. cbn [filter fst]. rewrite Nat.eqb_refl. reflexivity. Qed.

Definition better (s : static) (st st' : state) : Prop :=
  (rounds st' = rounds st /\ (mu s st' < mu s st)%nat) \/ (rounds st' = S (rounds st) /\ (mu s st' <= 7 * n s)%nat).

Lemma coord_ok s st a b r : Z.of_nat (n s) <= 65536 -> (exists f, (f < n s)%nat /\ enabled s f = true) -> Inv s st -> in_int64 a -> in_int64 b -> coord_step s st a b = Some r ->
  exists st', r = Ok st' /\ Inv s st' /\ better s st st'.
Proof.
  intros LN EX [C P F] Ia Ib. unfold coord_step. unfold phase_ok in P. destruct (phase_of st) as [todo any|f k t1 part todo any|] eqn:PH; [| |discriminate].
  - destruct P as (U & L & T & A). destruct todo as [|f r0].
    + assert (any = true) as -> by (destruct A as [A|(p & [] & _)]; exact A). intros X. injection X as <-. eexists. split; [reflexivity|]. split; [split|].
      * exact C.
      * unfold phase_ok. cbn. split; [exact U|]. rewrite seq_length. split; [lia|]. split; [intros g G; apply in_seq in G; lia|].
        right. destruct EX as (p & P1 & P2). exists p. split; [apply in_seq; lia|exact P2].
      * intros g G. specialize (F g G). unfold fed_ok in *. rewrite PH in F. exact F.
      * right. split; [reflexivity|]. unfold mu. cbn [phase_of feds]. rewrite seq_length. pose proof (total_le (seq 0 (n s)) (feds st)) as X. rewrite seq_length in X. lia.
    + intros X. injection X as <-. rewrite C. cbn [negb orb]. cbn [length] in L. destruct (enabled s f) eqn:EN; cbn [negb].
      * assert (LF : (f < n s)%nat) by (apply T; left; reflexivity).
        pose proof (F f LF) as FF. unfold fed_ok in FF. rewrite EN, PH in FF. destruct FF as (pend & W & SE).
        assert (D : deliver [timed MSG_TYPE_CLOCK_SYNC_T1 a] (feds st f) = mkFed (f_mode (feds st f)) (f_inbox (feds st f) ++ [msg1 a]) (f_done (feds st f))).
        { unfold deliver. destruct SE; reflexivity. }
        eexists. split; [reflexivity|]. split; [split|].
        -- exact C.
        -- unfold phase_ok. cbn. split; [left; exact U|]. split; [lia|]. split; [intros g G; apply T; right; exact G|]. repeat split; assumption.
        -- intros g G. unfold fed_ok. cbn [phase_of feds to_coord c_done]. rewrite U. destruct (Nat.eqb_spec g f) as [e|ne].
           ++ subst g. rewrite EN, fupd_same, D. exists pend. cbn [f_done f_mode f_inbox]. split; [exact W|]. constructor; assumption.
           ++ rewrite (fupd_other _ _ _ _ ne). specialize (F g G). unfold fed_ok in F. rewrite PH in F. exact F.
        -- left. split; [reflexivity|]. unfold mu. cbn [phase_of feds to_coord]. rewrite PH, U. cbn [length].
           pose proof (total_set s (feds st) f (deliver [timed MSG_TYPE_CLOCK_SYNC_T1 a] (feds st f)) LF) as X.
           assert (CO : cost (deliver [timed MSG_TYPE_CLOCK_SYNC_T1 a] (feds st f)) = cost (feds st f)).
           { rewrite D. unfold cost. cbn [f_mode f_inbox]. destruct SE; reflexivity. }
           lia.
      * eexists. split; [reflexivity|]. split; [split|].
        -- exact C.
        -- unfold phase_ok. cbn. split; [exact U|]. split; [lia|]. split; [intros g G; apply T; right; exact G|].
           destruct A as [A|(p & [E|I] & EP)]; [left; exact A|congruence|right; exists p; split; assumption].
        -- intros g G. specialize (F g G). unfold fed_ok in *. rewrite PH in F. exact F.
        -- left. split; [reflexivity|]. unfold mu. cbn [phase_of feds]. rewrite PH. cbn [length]. lia.
  - destruct P as (U & L & T & LF & EN & -> & ->). destruct U as [U|U]; rewrite U; [discriminate|]. unfold msg3 at 1. cbv zeta.
    change ([] ++ firstn (5 - @length Z []) (msg3 f)) with (MSG_TYPE_CLOCK_SYNC_T3 :: encode_int32 (Z.of_nat f)).
    change (length (MSG_TYPE_CLOCK_SYNC_T3 :: encode_int32 (Z.of_nat f)) <? 5)%nat with false. cbn [nth]. rewrite Z.eqb_refl.
    rewrite extract32_head by (unfold in_int32; lia). rewrite Z.eqb_refl, C. intros X. injection X as <-.
    pose proof (F f LF) as FF. unfold fed_ok in FF. rewrite EN, PH, Nat.eqb_refl, U in FF. destruct FF as (pend & W & M & Q & ->). rewrite app_nil_r in W.
    assert (D : deliver [timed MSG_TYPE_CLOCK_SYNC_T4 a; timed MSG_TYPE_CLOCK_SYNC_CODED_PROBE b] (feds st f) = mkFed (WaitT4 t1) [msg4 a; msg5 b] (f_done (feds st f))).
    { unfold deliver. rewrite M, Q. reflexivity. }
    eexists. split; [reflexivity|]. split; [split|].
    + exact C.
    + unfold phase_ok. cbn [phase_of to_coord]. split; [reflexivity|]. split; [lia|]. split; [assumption|]. left. apply orb_true_r.
    + intros g G. unfold fed_ok. cbn [phase_of feds to_coord c_done]. destruct (Nat.eq_dec g f) as [e|ne].
      * subst g. rewrite EN, fupd_same, D, with_fed_same, W. exists [(t1, a, b)]. cbn [f_done f_mode f_inbox]. split; [reflexivity|]. constructor; assumption.
      * rewrite (fupd_other _ _ _ _ ne), with_fed_other by assumption. specialize (F g G). unfold fed_ok in F. rewrite PH in F. destruct (Nat.eqb_spec g f); [contradiction|]. exact F.
    + left. split; [reflexivity|]. unfold mu. cbn [phase_of feds to_coord]. rewrite PH, U.
      pose proof (total_set s (feds st) f (deliver [timed MSG_TYPE_CLOCK_SYNC_T4 a; timed MSG_TYPE_CLOCK_SYNC_CODED_PROBE b] (feds st f)) LF) as X.
      rewrite D in *. unfold cost in X. cbn [f_mode f_inbox length Nat.leb] in X. rewrite M, Q in X. cbn [length Nat.leb] in X. lia.
Qed.

Lemma timed_parts ty t : firstn 9 (timed ty t) = timed ty t /\ length (timed ty t) = 9%nat /\ nth 0 (timed ty t) 0 = ty.
Proof. repeat split; reflexivity. Qed.
Lemma fed_ok_step s st f r : (f < n s)%nat -> Z.of_nat (n s) <= 65536 -> Inv s st -> fed_step s st f = Some r ->
  exists st', r = Ok st' /\ Inv s st' /\ better s st st'.
Proof.
  intros LF LN [C P F]. pose proof (F f LF) as FF. unfold fed_ok in FF. unfold fed_step.
  destruct (enabled s f) eqn:EN; [|rewrite FF; discriminate]. destruct FF as (pend & W & FF).
  (* the federate reads T4 or the probe: both leave it settled, or asked *)
  assert (K : forall m q dn pend',
     with_fed f (c_done st) = (f_done (feds st f) ++ dn) ++ pend' ->
     (forall rest, match phase_of st with Reading g _ t1 _ _ _ => if Nat.eqb f g then to_coord st = [] /\ exists q', q = q' ++ [msg1 t1] /\ rest = tt /\ in_int64 t1 /\ settled m q' pend' else settled m q pend' | _ => settled m q pend' end) ->
     (cost (mkFed m q (f_done (feds st f) ++ dn)) < cost (feds st f))%nat ->
     exists st', Ok (mkState (phase_of st) (rounds st) (to_coord st ++ []) (c_done st) (connected st) (fupd (feds st) f (mkFed m q (f_done (feds st f) ++ dn)))) = Ok st' /\ Inv s st' /\ better s st st').
  { intros m q dn pend' W' SE CO. specialize (SE tt). rewrite app_nil_r. eexists. split; [reflexivity|]. split; [split|].
    - exact C.
    - exact P.
    - intros g G. unfold fed_ok. cbn [phase_of feds to_coord c_done]. destruct (Nat.eq_dec g f) as [e|ne].
      + subst g. rewrite EN, fupd_same. exists pend'. cbn [f_done f_mode f_inbox]. split; [exact W'|].
        destruct (phase_of st) as [todo any|g k t1 part todo any|]; [exact SE| |exact SE]. destruct (Nat.eqb f g); [|exact SE].
        destruct SE as (U & q' & -> & _ & I & SE). rewrite U. constructor; assumption.
      + rewrite (fupd_other _ _ _ _ ne). apply (F g G).
    - left. split; [reflexivity|]. unfold mu. cbn [phase_of feds to_coord].
      pose proof (total_set s (feds st) f (mkFed m q (f_done (feds st f) ++ dn)) LF). lia. }
  assert (SC : (exists t1 k part todo any q', phase_of st = Reading f k t1 part todo any /\ to_coord st = [] /\ in_int64 t1 /\ f_inbox (feds st f) = q' ++ [msg1 t1] /\ settled (f_mode (feds st f)) q' pend) \/
     (f_inbox (feds st f) = []) \/
     ((match phase_of st with Reading g _ _ _ _ _ => Nat.eqb f g = false | _ => True end) /\ settled (f_mode (feds st f)) (f_inbox (feds st f)) pend)).
  { destruct (phase_of st) as [todo any|g k t1 part todo any|]; [right; right; split; [exact Logic.I|exact FF]| |right; right; split; [exact Logic.I|exact FF]].
    destruct (Nat.eqb_spec f g) as [e|ne]; [|right; right; split; [reflexivity|exact FF]]. subst g. destruct (to_coord st) as [|u us] eqn:U.
    - left. inversion FF as [m q p0 I SE E1 E2 E3]. subst. do 6 eexists. split; [reflexivity|]. split; [reflexivity|]. split; [exact I|]. split; [reflexivity|exact SE].
    - right. left. tauto. }
  destruct SC as [(t1 & k & part & todo & any & q' & PH & U & I1 & Q & SE)|[Q|(PH & SE)]].
  - rewrite Q. destruct (f_mode (feds st f)) as [|u1|u1 u4 pt|] eqn:M; inversion SE as [E1 E2 E3|v1 v4 v5 I4 I5 E1 E2 E3|v1 v4 v5 I5 E1 E2 E3]; subst; cbn [app].
    + (* it answers T1 *)
      destruct (timed_parts MSG_TYPE_CLOCK_SYNC_T1 t1) as (X1 & X2 & X3). unfold msg1. rewrite X1, X2, X3. cbn [Nat.ltb Nat.leb]. rewrite Z.eqb_refl. unfold timed. rewrite extract64_head by assumption.
      intros X. injection X as <-. rewrite U. cbn [app]. eexists. split; [reflexivity|]. unfold phase_ok in P. rewrite PH in P. destruct P as (_ & P2 & P3 & P4 & P5 & P6 & P7). split; [split|].
      * exact C.
      * unfold phase_ok. cbn [phase_of to_coord]. rewrite PH. split; [right; reflexivity|]. repeat split; assumption.
      * intros g G. unfold fed_ok. cbn [phase_of feds to_coord c_done]. rewrite PH. destruct (Nat.eqb_spec g f) as [e|ne].
        -- subst g. rewrite EN, fupd_same. exists []. cbn [f_done f_mode f_inbox]. rewrite !app_nil_r in *. split; [exact W|]. repeat split.
        -- rewrite (fupd_other _ _ _ _ ne). specialize (F g G). unfold fed_ok in F. rewrite PH in F. destruct (Nat.eqb_spec g f); [contradiction|exact F].
      * left. split; [reflexivity|]. unfold mu. cbn [phase_of feds to_coord]. rewrite PH, U.
        pose proof (total_set s (feds st) f (mkFed (WaitT4 t1) [] (f_done (feds st f) ++ [])) LF) as X. unfold cost in X. cbn [f_mode f_inbox length Nat.leb] in X. rewrite M in X. lia.
    + destruct (timed_parts MSG_TYPE_CLOCK_SYNC_T4 v4) as (X1 & X2 & X3). unfold msg4. rewrite X1, X2, X3. cbn [Nat.ltb Nat.leb]. rewrite Z.eqb_refl. unfold timed at 1. rewrite extract64_head by assumption.
      intros X. injection X as <-. apply (K _ _ _ [(u1, v4, v5)]).
      * rewrite app_nil_r. exact W.
      * intros []. rewrite PH, Nat.eqb_refl. split; [exact U|]. exists [msg5 v5]. split; [reflexivity|]. split; [reflexivity|]. split; [assumption|]. constructor; assumption.
      * unfold cost. rewrite M, Q. cbn. lia.
    + destruct (timed_parts MSG_TYPE_CLOCK_SYNC_CODED_PROBE v5) as (X1 & X2 & X3). unfold msg5. cbn [app length]. rewrite Nat.sub_0_r, X1, X2, X3. cbn [Nat.ltb Nat.leb Nat.eqb]. rewrite Z.eqb_refl. unfold timed at 1. rewrite extract64_head by assumption.
      intros X. injection X as <-. apply (K _ _ _ []).
      * rewrite app_nil_r. exact W.
      * intros []. rewrite PH, Nat.eqb_refl. split; [exact U|]. exists []. split; [reflexivity|]. split; [reflexivity|]. split; [assumption|]. constructor.
      * unfold cost. rewrite M. cbn. lia.
  - rewrite Q. discriminate.
  - assert (SE2 : forall m q p (rest : unit), settled m q p -> match phase_of st with Reading g _ t1 _ _ _ => if Nat.eqb f g then to_coord st = [] /\ exists q', q = q' ++ [msg1 t1] /\ rest = tt /\ in_int64 t1 /\ settled m q' p else settled m q p | _ => settled m q p end).
    { intros m q p rest X. destruct (phase_of st); [exact X| |exact X]. rewrite PH. exact X. }
    destruct (f_mode (feds st f)) as [|u1|u1 u4 pt|] eqn:M; inversion SE as [E1 E2 E3|v1 v4 v5 I4 I5 E1 E2 E3|v1 v4 v5 I5 E1 E2 E3]; subst.
    + discriminate.
    + destruct (timed_parts MSG_TYPE_CLOCK_SYNC_T4 v4) as (X1 & X2 & X3). unfold msg4. rewrite X1, X2, X3. cbn [Nat.ltb Nat.leb]. rewrite Z.eqb_refl. unfold timed at 1. rewrite extract64_head by assumption.
      intros X. injection X as <-. apply (K _ _ _ [(u1, v4, v5)]).
      * rewrite app_nil_r. exact W.
      * intros rest. apply SE2. constructor. assumption.
      * unfold cost. rewrite M, <- E2. cbn. lia.
    + destruct (timed_parts MSG_TYPE_CLOCK_SYNC_CODED_PROBE v5) as (X1 & X2 & X3). unfold msg5. cbn [app length]. rewrite Nat.sub_0_r, X1, X2, X3. cbn [Nat.ltb Nat.leb Nat.eqb]. rewrite Z.eqb_refl. unfold timed at 1. rewrite extract64_head by assumption.
      intros X. injection X as <-. apply (K _ _ _ []).
      * rewrite app_nil_r. exact W.
      * intros rest. apply SE2. constructor.
      * unfold cost. rewrite M. cbn. lia.
Qed.

(** ** Whole runs. *)
Lemma start_inv s listens : agree s listens -> Inv s (start listens).
Proof.
  intros (_ & A & _). split.
  - reflexivity.
  - unfold phase_ok. cbn. split; [reflexivity|]. split; [lia|]. split; [intros g []|left; reflexivity].
  - intros g G. unfold fed_ok. cbn [start feds phase_of c_done f_inbox f_mode f_done]. destruct (enabled s g) eqn:EN; [|reflexivity].
    exists []. split; [reflexivity|]. rewrite (A g G EN). constructor.
Qed.
Lemma step_inv s listens st o r : agree s listens -> Inv s st -> own o -> step s st o = Some r -> exists st', r = Ok st' /\ Inv s st' /\ better s st st'.
Proof.
  intros (LN & _ & EX) I O. destruct o as [a b|f|i|f i|d|f d|f]; cbn [own] in O; try destruct O; cbn [step].
  - apply coord_ok; assumption.
  - destruct (Nat.ltb_spec f (n s)) as [L|L]; [|discriminate]. apply fed_ok_step; assumption.
Qed.
Lemma run_inv s listens : agree s listens -> forall l st, Inv s st -> Forall own l ->
  exists st', run s st l = Ok st' /\ Inv s st' /\ (rounds st <= rounds st')%nat /\ (actions s st l + mu s st' <= mu s st + (7 * n s + 1) * (rounds st' - rounds st))%nat.
Proof.
  intros A. induction l as [|o l IH]; intros st I F; cbn [run actions].
  - exists st. split; [reflexivity|]. split; [exact I|]. split; lia.
  - inversion F as [|? ? O F']; subst. destruct (step s st o) as [r|] eqn:E; [|apply IH; assumption].
    destruct (step_inv s listens st o r A I O E) as (st1 & -> & I1 & B). destruct (IH st1 I1 F') as (st' & R & I' & LR & LE). exists st'. split; [exact R|]. split; [exact I'|].
    destruct B as [(B1 & B2)|(B1 & B2)].
    + rewrite B1 in *. split; [exact LR|]. lia.
    + split; [lia|]. assert (X : (rounds st' - rounds st = S (rounds st' - rounds st1))%nat) by lia. rewrite X, Nat.mul_succ_r. lia.
Qed.
Lemma inv_acts s st : Inv s st -> can_act s st.
Proof.
  intros [C P F]. unfold phase_ok in P. assert (Z0 : in_int64 0) by (unfold in_int64, LLONG_MIN, LLONG_MAX; lia). destruct (phase_of st) as [todo any|f k t1 part todo any|] eqn:PH; [| |destruct P].
  - exists (Coord 0 0). split; [split; exact Z0|]. cbn [step]. unfold coord_step. rewrite PH. destruct todo as [|f r]; [discriminate|]. discriminate.
  - destruct P as (U & _ & _ & L & EN & -> & ->). destruct U as [U|U].
    + exists (Fed f). split; [exact Logic.I|]. cbn [step]. destruct (Nat.ltb_spec f (n s)); [|lia]. specialize (F f L). unfold fed_ok in F. rewrite EN, PH, Nat.eqb_refl, U in F. destruct F as (pend & _ & F).
      unfold fed_step. inversion F as [m q p I1 SE E1 E2 E3]. inversion SE as [X1 X2 X3|v1 v4 v5 I4 I5 X1 X2 X3|v1 v4 v5 I5 X1 X2 X3]; cbn [app]; cbv zeta.
      * destruct (_ <? _)%nat; [discriminate|]. destruct (_ =? _); [|discriminate]. destruct (extract_int64 _ _ _); discriminate.
      * destruct (_ <? _)%nat; [discriminate|]. destruct (_ =? _); [|discriminate]. destruct (extract_int64 _ _ _); discriminate.
      * destruct (_ =? _)%nat; [discriminate|]. destruct (_ <? _)%nat; [discriminate|]. destruct (_ =? _); [|discriminate]. destruct (extract_int64 _ _ _); discriminate.
    + exists (Coord 0 0). split; [split; exact Z0|]. cbn [step]. unfold coord_step. rewrite PH, U. unfold msg3. cbv zeta.
      destruct (_ <? _)%nat; [discriminate|]. destruct (_ =? _); [|discriminate]. destruct (extract_int32 _ _ _) as [g|]; [destruct (g =? Z.of_nat f); discriminate|discriminate].
Qed.
(** What a federate has counted is what the coordinator has done, up to one exchange. *)
Lemma inv_done s st g : Inv s st -> (g < n s)%nat -> enabled s g = true -> exists pend, with_fed g (c_done st) = f_done (feds st g) ++ pend /\ (length pend <= 1)%nat.
Proof.
  intros [C P F] L EN. specialize (F g L). unfold fed_ok in F. rewrite EN in F. destruct F as (pend & W & F). exists pend. split; [exact W|].
  assert (SL : forall m q, settled m q pend -> (length pend <= 1)%nat) by (intros m q []; cbn; lia).
  destruct (phase_of st) as [todo any|f k t1 part todo any|]; [apply (SL _ _ F)| |apply (SL _ _ F)]. destruct (Nat.eqb g f); [|apply (SL _ _ F)].
  destruct (to_coord st); [|destruct F as (_ & _ & ->); cbn; lia]. destruct F as [m q p _ SE]. apply (SL _ _ SE).
Qed.

(** ** Every federate has its turn in every round. *)
Definition open_list (st : state) : list nat := match phase_of st with Turn todo _ => todo | Reading f _ _ _ todo _ => f :: todo | Finished => [] end.
Definition Inv2 (s : static) (st : state) : Prop :=
  NoDup (open_list st) /\ forall g, (g < n s)%nat -> enabled s g = true ->
    (In g (open_list st) -> S (length (with_fed g (c_done st))) = rounds st) /\ (~ In g (open_list st) -> length (with_fed g (c_done st)) = rounds st).
Lemma start_inv2 s listens : Inv2 s (start listens).
Proof. split; [constructor|]. intros g _ _. split; [intros []|reflexivity]. Qed.
Lemma fed_same s st f st' : fed_step s st f = Some (Ok st') -> phase_of st' = phase_of st /\ rounds st' = rounds st /\ c_done st' = c_done st.
Proof.
  unfold fed_step. cbv zeta. destruct (f_inbox (feds st f)) as [|d q]; [discriminate|].
  destruct (f_mode (feds st f)); [| | |discriminate].
  - destruct (_ <? _)%nat; [intros E; injection E as <-; repeat split|]. destruct (_ =? _); [|intros E; injection E as <-; repeat split].
    destruct (extract_int64 _ _ _); [intros E; injection E as <-; repeat split|discriminate].
  - destruct (_ <? _)%nat; [intros E; injection E as <-; repeat split|]. destruct (_ =? _); [|intros E; injection E as <-; repeat split].
    destruct (extract_int64 _ _ _); [intros E; injection E as <-; repeat split|discriminate].
  - destruct (_ =? _)%nat; [intros E; injection E as <-; repeat split|]. destruct (_ <? _)%nat; [intros E; injection E as <-; repeat split|]. destruct (_ =? _); [|intros E; injection E as <-; repeat split].
    destruct (extract_int64 _ _ _); [intros E; injection E as <-; repeat split|discriminate].
Qed.
Lemma coord_inv2 s st a b st' : Z.of_nat (n s) <= 65536 -> Inv s st -> Inv2 s st -> coord_step s st a b = Some (Ok st') -> Inv2 s st'.
Proof.
  intros LN [C P F] [D R]. unfold coord_step. unfold phase_ok in P. unfold open_list in D, R. destruct (phase_of st) as [todo any|f k t1 part todo any|] eqn:PH; [| |discriminate].
  - destruct P as (U & L & T & A). destruct todo as [|f r0].
    + assert (any = true) as -> by (destruct A as [A|(p & [] & _)]; exact A). intros X. injection X as <-. split; [apply seq_NoDup|].
      intros g G EN. destruct (R g G EN) as [_ R2]. unfold open_list. cbn [phase_of c_done rounds]. split.
      * intros _. rewrite R2 by (intros []). reflexivity.
      * intros N. destruct N. apply in_seq. lia.
    + rewrite C. cbn [negb orb]. intros X. injection X as <-. destruct (enabled s f) eqn:EF; cbn [negb].
      * split; [exact D|exact R].
      * inversion D; subst. split; [assumption|]. intros g G EN. destruct (R g G EN) as [R1 R2]. unfold open_list. cbn [phase_of c_done rounds]. split.
        -- intros I. apply R1. right. exact I.
        -- intros N. apply R2. intros [E|I]; [congruence|contradiction].
  - destruct P as (U & L & T & LF & EF & -> & ->). destruct U as [U|U]; rewrite U; [discriminate|]. unfold msg3 at 1. cbv zeta.
    change ([] ++ firstn (5 - @length Z []) (msg3 f)) with (MSG_TYPE_CLOCK_SYNC_T3 :: encode_int32 (Z.of_nat f)).
    change (length (MSG_TYPE_CLOCK_SYNC_T3 :: encode_int32 (Z.of_nat f)) <? 5)%nat with false. cbn [nth]. rewrite Z.eqb_refl.
    rewrite extract32_head by (unfold in_int32; lia). rewrite Z.eqb_refl. intros X. injection X as <-. inversion D as [|? ? NI D']; subst. split; [assumption|].
    intros g G EN. destruct (R g G EN) as [R1 R2]. unfold open_list. cbn [phase_of c_done rounds]. split.
    + intros I. rewrite with_fed_other by (intros ->; contradiction). apply R1. right. exact I.
    + intros N. destruct (Nat.eq_dec g f) as [->|ne].
      * rewrite with_fed_same, app_length. cbn [length]. rewrite <- R1 by (left; reflexivity). lia.
      * rewrite with_fed_other by assumption. apply R2. intros [E|I]; [congruence|contradiction].
Qed.
Lemma run_inv2 s listens : agree s listens -> forall l st st', Inv s st -> Inv2 s st -> Forall own l -> run s st l = Ok st' -> Inv2 s st'.
Proof.
  intros A. induction l as [|o l IH]; intros st st' I I2 F R; cbn [run] in R; [congruence|]. inversion F as [|? ? O F']; subst.
  destruct (step s st o) as [r|] eqn:E; [|apply (IH st st' I I2 F' R)].
  destruct (step_inv s listens st o r A I O E) as (st1 & -> & I1 & _). apply (IH st1 st' I1); [|exact F'|exact R].
  destruct o as [a b|f|i|f i|d|f d|f]; cbn [own] in O; try destruct O; cbn [step] in E.
  - destruct A as (LN & _). apply (coord_inv2 s st a b st1 LN I I2 E).
  - destruct (f <? n s)%nat; [|discriminate]. destruct (fed_same s st f st1 E) as (E1 & E2 & E3). unfold Inv2, open_list in *. rewrite E1, E2, E3. exact I2.
Qed.

(** ** A federate that has left. *)
Definition gone (f : nat) (d : list (Z * Z * Z)) (st : state) : Prop :=
  connected st f = false /\ (forall k t1 part todo any, phase_of st <> Reading f k t1 part todo any) /\ with_fed f (c_done st) = d.
Lemma gone_coord s f d st a b st' : gone f d st -> coord_step s st a b = Some (Ok st') -> gone f d st'.
Proof.
  intros (C & N & D) E. unfold coord_step in E. destruct (phase_of st) as [todo any|g k t1 part todo any|] eqn:PH; [| |discriminate].
  - destruct todo as [|g r0]; cycle 1; [destruct (negb (connected st g) || negb (enabled s g)) eqn:Q|destruct any]; injection E as <-; (split; [exact C|split; [|exact D]]); cbn [phase_of]; try discriminate.
    intros k t1 part todo any0 K. injection K as -> _ _ _ _ _. rewrite C in Q. discriminate.
  - assert (NG : g <> f) by (intros ->; apply (N k t1 part todo any); reflexivity).
    assert (DI : forall m, forall k' t1' part' todo' any', discard g m t1 todo any <> Reading f k' t1' part' todo' any').
    { intros m k' t1' part' todo' any'. unfold discard. destruct m; [discriminate|]. intros K. injection K as K _. contradiction. }
    destruct (to_coord st) as [|[|x m] q]; [discriminate|injection E as <-; split; [exact C|split; [discriminate|exact D]]|].
    destruct (_ <? _)%nat; [injection E as <-; split; [exact C|split; [|exact D]]; cbn [phase_of]; intros ? ? ? ? ? K; injection K as K _; contradiction|].
    destruct (_ =? _); [|injection E as <-; split; [exact C|split; [apply DI|exact D]]]. destruct (extract_int32 _ _ _); [|discriminate].
    destruct (_ =? _); injection E as <-; (split; [exact C|split]); cbn [phase_of c_done]; try apply DI; try exact D; [discriminate|]. rewrite with_fed_other by congruence. exact D.
Qed.
Lemma gone_run s f d : forall l st st', gone f d st -> run s st l = Ok st' -> gone f d st'.
Proof.
  induction l as [|o l IH]; intros st st' G R; cbn [run] in R; [congruence|]. destruct (step s st o) as [[st1|]|] eqn:E; [|discriminate|apply (IH st st' G R)]. apply (IH st1 st'); [|exact R].
  destruct o as [a b|g|i|g i|x|g x|g]; cbn [step] in E; try (injection E as <-; exact G).
  - apply (gone_coord s f d st a b st1 G E).
  - destruct (g <? n s)%nat; [|discriminate]. destruct (fed_same s st g st1 E) as (E1 & E2 & E3). destruct G as (C & N & D). split; [|split; [rewrite E1; exact N|rewrite E3; exact D]].
    clear - E C. unfold fed_step in E. cbv zeta in E. destruct (f_inbox (feds st g)); [discriminate|]. destruct (f_mode (feds st g)); [| | |discriminate];
    repeat match type of E with context [if ?x then _ else _] => destruct x | context [match ?x with Ok _ => _ | UB => _ end] => destruct x end; try discriminate; injection E as <-; exact C.
  - injection E as <-. destruct G as (C & N & D). split; [|split; assumption]. cbn [connected]. unfold fupd. destruct (Nat.eqb f g); [reflexivity|exact C].
Qed.
