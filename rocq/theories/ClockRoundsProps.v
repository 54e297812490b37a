(** C87: clock synchronization at runtime. *)
From Verif Require Import Base Net NetSpec Join ClockRounds ClockRoundsSpec ClockRoundsProofs.
Local Open Scope Z_scope.

(** Three federates; the second does not take part. *)
Definition ex_static : static := mkStatic 3 (fun f => negb (Nat.eqb f 1)) true (fun f => Nat.eqb f 0).
Definition ex_listens (f : nat) : bool := negb (Nat.eqb f 1).
Lemma ex_agree : agree ex_static ex_listens.
Proof. split; [cbn; lia|]. split; [intros f _ E; exact E|]. exists 0%nat. split; [cbn; lia|reflexivity]. Qed.
Definition ex_round (t : Z) : list op :=
  [Coord t t; Coord t t; Fed 0; Fed 2; Coord (t + 5) (t + 6); Coord t t; Fed 0; Coord (t + 7) t; Fed 2; Fed 0; Coord (t + 9) (t + 10); Coord t t; Fed 2].

(** The property: synchronization goes on as long as a federate takes part, every
    federate has one exchange in every round, and the federate computes with the times of
    one exchange.  Proved for a network that loses nothing, federates that stay, and no
    datagrams of other programs: in every interleaving nothing is undefined, somebody can
    always act, rounds follow each other after a bounded number of actions, and a
    federate has counted the exchanges of the coordinator, the last one possibly not yet.
    Missing: everything else a network may do, see the refutations below. *)
Theorem C87_rounds_partial s listens l : agree s listens -> Forall own l ->
  exists st, run s (start listens) l = Ok st /\ can_act s st /\
    (actions s (start listens) l <= (7 * n s + 1) * rounds st)%nat /\
    forall f, (f < n s)%nat -> enabled s f = true ->
      (rounds st <= S (length (with_fed f (c_done st))) <= S (rounds st))%nat /\
      exists pending, with_fed f (c_done st) = f_done (feds st f) ++ pending /\ (length pending <= 1)%nat.
Proof.
  intros A F. destruct (run_inv s listens A l (start listens) (start_inv s listens A) F) as (st & R & I & _ & LE). exists st. split; [exact R|].
  split; [apply inv_acts; exact I|]. split.
  - assert (M0 : mu s (start listens) = 0%nat).
    { unfold mu. cbn [start phase_of feds length]. assert (X : forall k, total k (fun f => mkFed (if listens f then WaitT1 else ThreadEnded) [] []) = 0%nat).
      { intros k. unfold total. induction k as [|g k IH]; [reflexivity|]. cbn [map list_sum fold_right]. unfold list_sum in IH. rewrite IH. unfold cost. cbn [f_mode]. destruct (listens g); reflexivity. }
      rewrite X. reflexivity. }
    rewrite M0 in LE. change (rounds (start listens)) with 0%nat in LE. rewrite Nat.sub_0_r in LE. lia.
  - intros f L EN. split; [|apply (inv_done s st f I L EN)].
    destruct (run_inv2 s listens A l (start listens) st (start_inv s listens A) (start_inv2 s listens) F R) as [_ I2]. destruct (I2 f L EN) as [R1 R2].
    destruct (in_dec Nat.eq_dec f (open_list st)) as [Y|N]; [specialize (R1 Y)|specialize (R2 N)]; lia.
Qed.
Print Assumptions C87_rounds_partial.
Example C87_rounds_inst : agree ex_static ex_listens /\ Forall own (ex_round 100 ++ ex_round 200) /\
  match run ex_static (start ex_listens) (ex_round 100 ++ ex_round 200) with
  | Ok st => rounds st = 3%nat /\ f_done (feds st 0%nat) = [(100, 105, 106); (200, 205, 206)] /\ f_done (feds st 2%nat) = [(107, 109, 110)] /\
      with_fed 2 (c_done st) = [(107, 109, 110); (207, 209, 210)]
  | UB => False
  end.
Proof.
  split; [exact ex_agree|]. split.
  - apply Forall_forall. intros o O. repeat (destruct O as [<-|O]; [cbn [own]; unfold in_int64, LLONG_MIN, LLONG_MAX; first [exact Logic.I|lia]|]). destruct O.
  - vm_compute. repeat split.
Qed.

(** Whatever else happens: once a federate has left, and the coordinator was not waiting
    for its answer, the coordinator does not wait for it any more. *)
Theorem C87_left s st f l st' : (forall k t1 part todo any, phase_of st <> Reading f k t1 part todo any) -> run s st (Leave f :: l) = Ok st' ->
  (forall k t1 part todo any, phase_of st' <> Reading f k t1 part todo any) /\ with_fed f (c_done st') = with_fed f (c_done st).
Proof.
  intros N R. cbn [run step] in R. set (st1 := mkState _ _ _ _ _ _) in R. assert (G : gone f (with_fed f (c_done st)) st1).
  { split; [|split; [exact N|reflexivity]]. unfold st1, fupd. cbn [connected]. rewrite Nat.eqb_refl. reflexivity. }
  destruct (gone_run s f _ l st1 st' G R) as (_ & A & B). split; assumption.
Qed.
Print Assumptions C87_left.
Example C87_left_inst : match run ex_static (start ex_listens) (ex_round 100 ++ [Leave 2] ++ ex_round 200) with Ok st => f_done (feds st 0%nat) = [(100, 105, 106); (200, 205, 206)] /\ with_fed 2 (c_done st) = [(107, 109, 110)] | UB => False end.
Proof. vm_compute. repeat split. Qed.

(** ** Refutations: two federates, both take part. *)
Definition two_static : static := mkStatic 2 (fun _ => true) false (fun _ => false).
Lemma two_agree : agree two_static (fun _ => true).
Proof. split; [cbn; lia|]. split; [intros; reflexivity|]. exists 0%nat. split; [cbn; lia|reflexivity]. Qed.
Definition no_mail (x : fed) : bool := match f_inbox x, f_mode x with [], _ | _, ThreadEnded => true | _, _ => false end.
Definition deadb (st : state) : bool :=
  match phase_of st with Finished => true | Reading _ _ _ _ _ _ => match to_coord st with [] => true | _ => false end | Turn _ _ => false end &&
  no_mail (feds st 0%nat) && no_mail (feds st 1%nat).
Lemma no_mail_none s st f : no_mail (feds st f) = true -> fed_step s st f = None.
Proof. unfold no_mail, fed_step. destruct (f_inbox (feds st f)) as [|d q]; [reflexivity|]. destruct (f_mode (feds st f)); [discriminate..|reflexivity]. Qed.
Lemma two_dead st : deadb st = true -> dead two_static st.
Proof.
  unfold deadb. intros D (o & O & N). apply andb_true_iff in D. destruct D as [D D1]. apply andb_true_iff in D. destruct D as [D D0].
  destruct o as [a b|f|i|f i|d|f d|f]; cbn [own] in O; try destruct O; cbn [step] in N.
  - apply N. unfold coord_step. destruct (phase_of st); [discriminate| |reflexivity]. destruct (to_coord st); [reflexivity|discriminate].
  - change (n two_static) with 2%nat in N. destruct f as [|[|f]]; cbn [Nat.ltb Nat.leb] in N; [apply N, no_mail_none, D0|apply N, no_mail_none, D1|contradiction].
Qed.
Lemma dies listens l (P : state -> Prop) : match run two_static (start listens) l with Ok st => deadb st = true /\ P st | UB => False end ->
  exists st, run two_static (start listens) l = Ok st /\ P st /\ dead two_static st.
Proof. destruct (run two_static (start listens) l) as [st|]; [|intros []]. intros [D P0]. exists st. split; [reflexivity|]. split; [exact P0|apply two_dead, D]. Qed.
Lemma dies0 listens l : match run two_static (start listens) l with Ok st => deadb st | UB => false end = true -> exists st, run two_static (start listens) l = Ok st /\ dead two_static st.
Proof. destruct (run two_static (start listens) l) as [st|]; [|discriminate]. intros D. exists st. split; [reflexivity|apply two_dead, D]. Qed.

(** Refuted: a lost datagram costs at most one exchange.  The coordinator waits for ever
    for the answer to a T1 that was lost, and for an answer that was lost; and a federate
    whose probe was lost takes the next T1 for it and does not answer that one.  No
    federate is synchronized ever again. *)
Theorem C87_lost_refuted : exists s listens, agree s listens /\
  (exists st, run s (start listens) ([Coord 1 2; Coord 3 4] ++ [LoseDown 0 0]) = Ok st /\ dead s st) /\
  (exists st, run s (start listens) ([Coord 1 2; Coord 3 4; Fed 0] ++ [LoseUp 0]) = Ok st /\ dead s st) /\
  (exists st, run s (start listens) ([Coord 1 2; Coord 3 4; Fed 0; Coord 5 6; Fed 0] ++ [LoseDown 0 0] ++
     [Coord 7 8; Fed 1; Coord 9 10; Fed 1; Fed 1; Coord 11 12; Coord 13 14; Fed 0]) = Ok st /\ dead s st).
Proof.
  exists two_static, (fun _ => true). split; [exact two_agree|]. split; [|split]; apply dies0; vm_compute; reflexivity.
Qed.
Print Assumptions C87_lost_refuted.

(** Refuted: a federate that leaves does not matter to the others.  If it leaves while
    the coordinator waits for its answer, nobody is synchronized ever again. *)
Theorem C87_leave_refuted : exists s listens, agree s listens /\
  exists st, run s (start listens) ([Coord 1 2; Coord 3 4] ++ [Leave 0]) = Ok st /\ connected st 1%nat = true /\ dead s st.
Proof.
  exists two_static, (fun _ => true). split; [exact two_agree|]. apply dies. vm_compute. split; reflexivity.
Qed.
Print Assumptions C87_leave_refuted.

(** Refuted: the thread of the coordinator runs as long as a federate takes part.  An
    answer that is read with the last attempt is not counted: with four datagrams of
    another program in front of each answer of a round the thread ends, although every
    exchange of the round was completed. *)
Definition noise (k : nat) : list op := repeat (StrayUp [0; 0; 0; 0; 0]) k.
Theorem C87_fifth_refuted : exists s listens, agree s listens /\
  exists st, run s (start listens) ([Coord 1 2; Coord 3 4] ++ noise 4 ++ [Fed 0] ++ repeat (Coord 5 6) 5 ++ [Fed 0; Fed 0; Coord 7 8] ++ noise 4 ++ [Fed 1] ++
      repeat (Coord 9 10) 5 ++ [Fed 1; Fed 1; Coord 11 12]) = Ok st /\
    f_done (feds st 0%nat) = [(3, 5, 6)] /\ f_done (feds st 1%nat) = [(7, 9, 10)] /\ phase_of st = Finished /\ dead s st.
Proof.
  exists two_static, (fun _ => true). split; [exact two_agree|].
  match goal with |- exists st, run _ (start ?k) ?l = _ /\ _ => destruct (dies k l (fun st => f_done (feds st 0%nat) = [(3, 5, 6)] /\ f_done (feds st 1%nat) = [(7, 9, 10)] /\ phase_of st = Finished)) as (st & R & (P1 & P2 & P3) & D) end;
    [vm_compute; repeat split|]. exists st. repeat (split; [assumption|]). exact D.
Qed.
Print Assumptions C87_fifth_refuted.

(** Refuted: a federate ignores datagrams of other programs.  One that is too short ends
    its thread, and the coordinator then waits for ever. *)
Theorem C87_short_refuted : exists s listens, agree s listens /\
  exists st, run s (start listens) ([StrayDown 0 [12]] ++ [Fed 0; Coord 1 2; Coord 3 4]) = Ok st /\ dead s st.
Proof. exists two_static, (fun _ => true). split; [exact two_agree|].
  apply dies0; vm_compute; reflexivity.
Qed.
Print Assumptions C87_short_refuted.

(** Refuted: the coordinator takes only answers to its T1.  It accepts the datagram of
    any program with the number of the federate, and takes T4 before the federate has
    even seen T1; the federate then computes with these times. *)
Theorem C87_forged_refuted : exists s listens, agree s listens /\
  exists st, run s (start listens) ([Coord 1 2; Coord 3 4] ++ [StrayUp (MSG_TYPE_CLOCK_SYNC_T3 :: encode_int32 0)] ++ [Coord 5 6]) = Ok st /\
    c_done st = [(0%nat, (3, 5, 6))] /\ f_mode (feds st 0%nat) = WaitT1 /\
    exists st', run s st [Fed 0; Fed 0; Fed 0] = Ok st' /\ f_done (feds st' 0%nat) = [(3, 5, 6)].
Proof.
  exists two_static, (fun _ => true). split; [exact two_agree|].
  set (l := [Coord 1 2; Coord 3 4] ++ _). assert (X : match run two_static (start (fun _ => true)) l with
    | Ok st => c_done st = [(0%nat, (3, 5, 6))] /\ f_mode (feds st 0%nat) = WaitT1 /\ match run two_static st [Fed 0; Fed 0; Fed 0] with Ok st' => f_done (feds st' 0%nat) = [(3, 5, 6)] | UB => False end
    | UB => False end) by (vm_compute; repeat split).
  destruct (run two_static (start (fun _ => true)) l) as [st|]; [|destruct X]. destruct X as (X1 & X2 & X3). exists st. split; [reflexivity|]. split; [exact X1|]. split; [exact X2|].
  destruct (run two_static st [Fed 0; Fed 0; Fed 0]) as [st'|]; [|destruct X3]. exists st'. split; [reflexivity|exact X3].
Qed.
Print Assumptions C87_forged_refuted.

(** Refuted: a federate without clock synchronization does not matter to the others.  If
    the coordinator has it enabled for that federate (which a federate without it does
    not prevent, see [C85_enabled_refuted]), it waits for its answer for ever. *)
Theorem C87_off_refuted : exists s listens, enabled s 0%nat = true /\ listens 0%nat = false /\ listens 1%nat = true /\
  exists st, run s (start listens) [Coord 1 2; Coord 3 4] = Ok st /\ dead s st.
Proof.
  exists two_static, (fun f => Nat.eqb f 1). split; [reflexivity|]. split; [reflexivity|]. split; [reflexivity|].
  apply dies0; vm_compute; reflexivity.
Qed.
Print Assumptions C87_off_refuted.
