(** Federations with cycles without delay (C77). *)
From Verif Require Import Base Tag TagSpec TagProofs RtiDelays RtiDelaysSpec Rti Federation FederationSpec Provisional ProvisionalSpec ProvisionalProofs.
From Verif Require PortStatus PortStatusSpec.
Open Scope Z_scope.

(** ** C77.  In every execution of a federation, with cycles without delay or not, in which no absence arrives late: no
    federate ends with an error because of a message that comes too late or a PTAG after a TAG; every message forwarded to
    a federate after a TAG has a later tag; every message forwarded after a PTAG has no earlier tag.

    The full property has no condition on the arrival of absences, and asks only that the inputs be as the code generator makes
    them ([generated]).  Both are needed: see the findings below. *)
Theorem C77_safe_partial : forall tp start pt index ops y i, topo_ok tp -> (forall k, (tp_n tp <= k)%nat -> tp_up tp k = []) -> wired tp pt index -> 0 <= start < FOREVER ->
  timely tp start pt index (init_zsys start pt) ops -> zrun tp start pt index (init_zsys start pt) ops = Some y ->
  z_failed (y_fed y i) = false /\ grants_respected (r_sent (y_rti y i)) /\ provisional_respected (r_sent (y_rti y i)).
Proof.
  intros tp start pt index ops y i Htp Hr Hw Hs T E.
  pose proof (inv_run tp start pt index Htp Hr Hs Hw ops (init_zsys start pt) y (inv_init tp start pt index Htp Hr Hs Hw) T E) as H. pose proof (i_local _ _ _ _ _ _ H i) as L.
  split; [apply L|]. split; [apply (l_log _ _ _ _ _ _ _ L)|apply (l_plogfull _ _ _ _ _ _ _ L)].
Qed.
Print Assumptions C77_safe_partial.

(** Hence nothing is late: what is in the queue of a federate is later than every tag it has completed, and a message on its
    way to it is later than every tag it has completed, and not before the tag it is executing. *)
Theorem C77_not_late_partial : forall tp start pt index ops y i g, topo_ok tp -> (forall k, (tp_n tp <= k)%nat -> tp_up tp k = []) -> wired tp pt index -> 0 <= start < FOREVER ->
  timely tp start pt index (init_zsys start pt) ops -> zrun tp start pt index (init_zsys start pt) ops = Some y -> z_started (y_fed y i) = true ->
  (In g (z_queue (y_fed y i)) -> tag_lt (zcur (y_fed y i)) g) /\
  (In (MMsg g) (skipn (z_rcvd (y_fed y i)) (r_sent (y_rti y i))) -> tag_le (zcur (y_fed y i)) g /\ (z_busy (y_fed y i) = false -> tag_lt (zcur (y_fed y i)) g)).
Proof.
  intros tp start pt index ops y i g Htp Hr Hw Hs T E St.
  pose proof (inv_run tp start pt index Htp Hr Hs Hw ops (init_zsys start pt) y (inv_init tp start pt index Htp Hr Hs Hw) T E) as H. pose proof (i_local _ _ _ _ _ _ H i) as L.
  assert (D : done (y_fed y i) = zcur (y_fed y i)) by (unfold done; rewrite St; reflexivity).
  split; [intros K; rewrite <- D; apply (l_queue _ _ _ _ _ _ _ L), K|]. intros K. destruct (in_attach _ _ _ (l_ports _ _ _ _ _ _ _ L) K eq_refl) as (p & Hp).
  destruct (l_pend _ _ _ _ _ _ _ L g p Hp) as ((F1 & _ & F3 & _) & _ & Np). split; [|intros Hb; rewrite <- D; apply F3, Hb].
  eapply tag_le_trans; [|exact F1]. apply (l_done _ _ _ _ _ _ _ L); [apply (port_up tp pt index Hw _ _ Np)|exact St].
Qed.
Print Assumptions C77_not_late_partial.

(** ** Federates 0, 1 and 2, where 0 and 1, and 1 and 2, are connected both ways without delay. *)
Definition cyc_port (s : nat) : PortStatus.port := PortStatus.mkPort NEVER_TAG false 1 NEVER true s.
Definition cyc_topo : topo :=
  mkTopo 3 (fun i => match i with 0%nat => [(1%nat, NEVER)] | 1%nat => [(0%nat, NEVER); (2%nat, NEVER)] | 2%nat => [(1%nat, NEVER)] | _ => [] end)
           (fun i => match i with 0%nat => [1%nat] | 1%nat => [0%nat; 2%nat] | 2%nat => [1%nat] | _ => [] end).
Definition cyc_ports (i : nat) : list PortStatus.port := match i with 0%nat => [cyc_port 1] | 1%nat => [cyc_port 0; cyc_port 2] | 2%nat => [cyc_port 1] | _ => [] end.
Definition cyc_index (j p : nat) : Z := 1.
Ltac ports_cases := intros j p q Ep; apply nth_error_In in Ep; destruct j as [|[|[|[|j]]]]; cbn in Ep; repeat match type of Ep with _ \/ _ => destruct Ep as [<-|Ep] end; try (destruct Ep; fail).
Ltac topo_cases := split; [|reflexivity]; intros i u d K; do 4 (destruct i as [|i]; [cbn in K; repeat (destruct K as [K|K]; [injection K as <- <-; split; [cbn; lia|vm_compute; intuition discriminate]|]); destruct K|]); destruct K.
Lemma cyc_topo_ok : topo_ok cyc_topo /\ (forall k, (tp_n cyc_topo <= k)%nat -> tp_up cyc_topo k = []).
Proof.
  split; [topo_cases|]. intros k K. cbn in K. destruct k as [|[|[|k]]]; try lia; reflexivity.
Qed.
Lemma cyc_wired : wired cyc_topo cyc_ports cyc_index /\ generated cyc_topo cyc_ports cyc_index.
Proof.
  split; ports_cases; (split; [reflexivity|]; split; [vm_compute; intuition discriminate|]; split; [reflexivity|]; split; [vm_compute; discriminate|]).
  1-4: split; [eexists; split; [cbn; auto|vm_compute; discriminate]|]; split; [intros _; now left|intros _; now left].
  all: split; [cbn; auto|]; split; [intros _|reflexivity]; split; [reflexivity|]; exists [NEVER]; split; [apply path_one; cbn; auto|repeat constructor].
Qed.

(** The start tag: everybody has an event, everybody sends NET, three PTAGs, everybody says that nothing is sent. *)
Definition tg (t : Z) : tag := mkTag t 0.
Definition cyc_start : list zop :=
  [YNet 0 (tg 0); YNet 1 (tg 0); YNet 2 (tg 0); YTake 0; YTake 1; YTake 2; YRecv 0; YRecv 1; YRecv 2; YStart 0 (tg 0); YStart 1 (tg 0); YStart 2 (tg 0);
   YAbsent 0 1 0; YAbsent 2 1 1; YTake 0; YTake 2; YRecv 1; YRecv 1; YAbsent 1 0 0; YAbsent 1 2 0; YTake 1; YTake 1; YRecv 0; YRecv 2; YComplete 0 true; YComplete 1 true; YComplete 2 true;
   YEvent 0 (tg 1); YNet 0 (tg 1); YNet 1 (tg 9); YNet 2 (tg 9); YTake 0; YTake 1; YTake 2; YTake 0; YTake 1; YTake 2; YTake 1; YTake 2; YTake 0; YRecv 0; YRecv 0; YRecv 1; YRecv 1; YRecv 2; YRecv 2].
(** Then 0 has an event at 1 and sends to 1, which sends to 2: the messages arrive while the receivers execute the tag. *)
Definition cyc_run : list zop :=
  cyc_start ++ [YStart 0 (tg 1); YStart 1 (tg 1); YStart 2 (tg 1); YAbsent 2 1 1; YSend 0 1 0; YTake 0; YTake 2; YRecv 1; YRecv 1; YSend 1 2 0; YAbsent 1 0 0; YTake 1; YTake 1; YRecv 2; YRecv 0; YSched 2 (tg 3); YComplete 0 true; YComplete 1 true; YComplete 2 true].
Definition zlog (r : option zsys) (i : nat) : option (list rmsg * tag * list tag * bool) :=
  match r with Some y => Some (r_sent (y_rti y i), zcur (y_fed y i), z_queue (y_fed y i), z_failed (y_fed y i)) | None => None end.
Example C77_ex : timely cyc_topo 0 cyc_ports cyc_index (init_zsys 0 cyc_ports) cyc_run /\
  zlog (zrun cyc_topo 0 cyc_ports cyc_index (init_zsys 0 cyc_ports) cyc_run) 1 =
    Some ([MPtag (tg 0); MAbsent (tg 0); MAbsent (tg 0); MTag (tg 0); MPtag (tg 1); MMsg (tg 1); MAbsent (tg 1)], tg 1, [], false) /\
  zlog (zrun cyc_topo 0 cyc_ports cyc_index (init_zsys 0 cyc_ports) cyc_run) 2 = Some ([MPtag (tg 0); MAbsent (tg 0); MTag (tg 0); MPtag (tg 1); MMsg (tg 1)], tg 1, [tg 3], false).
Proof. split; [apply timelyb_spec; vm_compute; reflexivity|]. vm_compute. auto. Qed.

(** ** Finding: late absences.  Federate 2 executes tag 1 and waits for 1, whose input at that tag it does not know.  Federate 0,
    which has completed tag 1, announces an event at 2, and all are granted tag 2 provisionally.  That ends the wait of 2, which
    completes tag 1 and starts tag 2.  Only then does 1 say that it sends nothing at 1.  That absence is taken for one at tag 2
    (federate.c:264-265).  The message that 1 then sends at
    tag 2 is not expected any more, and ends federate 2 with an error (federate.c:371-381). *)
Definition late_run : list zop :=
  cyc_start ++ [YStart 0 (tg 1); YStart 1 (tg 1); YStart 2 (tg 1); YAbsent 0 1 0; YAbsent 2 1 1; YTake 0; YTake 2; YRecv 1; YRecv 1; YAbsent 1 0 0; YTake 1; YRecv 0; YComplete 0 true; YEvent 0 (tg 2); YNet 0 (tg 2); YTake 0; YTake 0; YTake 0;
   YRecv 2; YComplete 2 true; YStart 2 (tg 2); YAbsent 1 2 0; YTake 1; YComplete 1 true; YTake 1; YRecv 2; YRecv 1; YStart 1 (tg 2); YRecv 0; YStart 0 (tg 2); YSend 0 1 0; YTake 0; YRecv 1; YSend 1 2 0; YTake 1; YTake 1; YRecv 2].
Theorem C77_safe_refuted : exists tp start pt index ops y i, topo_ok tp /\ (forall k, (tp_n tp <= k)%nat -> tp_up tp k = []) /\ wired tp pt index /\ generated tp pt index /\ 0 <= start < FOREVER /\
  zrun tp start pt index (init_zsys start pt) ops = Some y /\ z_failed (y_fed y i) = true.
Proof.
  exists cyc_topo, 0, cyc_ports, cyc_index, late_run. destruct (zrun cyc_topo 0 cyc_ports cyc_index (init_zsys 0 cyc_ports) late_run) as [y|] eqn:E; [|vm_compute in E; discriminate]. exists y, 2%nat.
  split; [apply cyc_topo_ok|]. split; [apply cyc_topo_ok|]. split; [apply cyc_wired|]. split; [apply cyc_wired|]. split; [vm_compute; intuition discriminate|]. split; [reflexivity|]. vm_compute in E. injection E as <-. vm_compute. reflexivity.
Qed.
Print Assumptions C77_safe_refuted.

(** ** Finding: two cycles.  Federates 0 and 1 are on a cycle without delay, 2 and 3 on another one, and 0 is connected to 2 with
    a delay of 5.  When the coordinator determines which messages a federate may get from outside its cycle, it skips every
    upstream federate that is on a cycle, be it on another one (rti_common.c:130-132).  Here 0 has an event at 5, and 2 one at
    10: 2 gets a PTAG for 10, and completes 10 as soon as 3 has said that it sends nothing.  The message that 0 sends at 5
    arrives at 2 with tag 10, and ends it with an error.  No absence is late. *)
Definition two_topo : topo :=
  mkTopo 4 (fun i => match i with 0%nat => [(1%nat, NEVER)] | 1%nat => [(0%nat, NEVER)] | 2%nat => [(3%nat, NEVER); (0%nat, 5)] | 3%nat => [(2%nat, NEVER)] | _ => [] end)
           (fun i => match i with 0%nat => [1%nat; 2%nat] | 1%nat => [0%nat] | 2%nat => [3%nat] | 3%nat => [2%nat] | _ => [] end).
Definition two_ports (i : nat) : list PortStatus.port :=
  match i with 0%nat => [cyc_port 1] | 1%nat => [cyc_port 0] | 2%nat => [cyc_port 3; PortStatus.mkPort NEVER_TAG false 1 5 false 0] | 3%nat => [cyc_port 2] | _ => [] end.
Definition two_run : list zop :=
  [YNet 0 (tg 0); YNet 1 (tg 0); YNet 2 (tg 0); YNet 3 (tg 0); YTake 0; YTake 1; YTake 2; YTake 3; YRecv 0; YRecv 1; YRecv 2; YRecv 3; YStart 0 (tg 0); YStart 1 (tg 0); YStart 2 (tg 0); YStart 3 (tg 0);
   YAbsent 0 1 0; YTake 0; YRecv 1; YAbsent 1 0 0; YTake 1; YRecv 0; YAbsent 2 3 0; YTake 2; YRecv 3; YAbsent 3 2 0; YTake 3; YRecv 2; YComplete 0 true; YComplete 1 true; YComplete 2 true; YComplete 3 true;
   YEvent 0 (tg 5); YEvent 2 (tg 10); YNet 0 (tg 5); YNet 1 (tg 20); YNet 2 (tg 10); YNet 3 (tg 20); YTake 0; YTake 0; YTake 0; YTake 1; YTake 1; YTake 1; YTake 2; YTake 2; YTake 2; YTake 3; YTake 3; YTake 3;
   YRecv 2; YRecv 3; YRecv 3; YStart 2 (tg 10); YStart 3 (tg 10); YAbsent 3 2 0; YTake 3; YRecv 2; YComplete 2 true; YRecv 0; YStart 0 (tg 5); YSend 0 2 1; YTake 0; YRecv 2].
Lemma two_generated : generated two_topo two_ports cyc_index.
Proof.
  ports_cases; (split; [reflexivity|]; split; [vm_compute; intuition discriminate|]; split; [reflexivity|]; split; [vm_compute; discriminate|]; split; [cbn; auto|]); split; try reflexivity; try discriminate.
  1-3, 5: intros _; split; [reflexivity|]; exists [NEVER]; split; [apply path_one; cbn; auto|repeat constructor].
  intros (K & _). vm_compute in K. discriminate K.
Qed.
Theorem C77_cycles_refuted : exists tp start pt index ops y i, topo_ok tp /\ (forall k, (tp_n tp <= k)%nat -> tp_up tp k = []) /\ generated tp pt index /\ 0 <= start < FOREVER /\
  timely tp start pt index (init_zsys start pt) ops /\ zrun tp start pt index (init_zsys start pt) ops = Some y /\ z_failed (y_fed y i) = true.
Proof.
  exists two_topo, 0, two_ports, cyc_index, two_run. destruct (zrun two_topo 0 two_ports cyc_index (init_zsys 0 two_ports) two_run) as [y|] eqn:E; [|vm_compute in E; discriminate]. exists y, 2%nat.
  split; [topo_cases|]. split; [intros k K; cbn in K; destruct k as [|[|[|[|k]]]]; try lia; reflexivity|]. split; [apply two_generated|].
  split; [vm_compute; intuition discriminate|]. split; [apply timelyb_spec; vm_compute; reflexivity|]. split; [reflexivity|]. vm_compute in E. injection E as <-. vm_compute. reflexivity.
Qed.
Print Assumptions C77_cycles_refuted.

(** ** Finding: a deadlock.  Federate 0 is connected to 1, and 1 and 2 both ways, all without delay.  Federate 2 announces an event
    at 5 while 0 may still send at 5: 2 gets a PTAG for 5, but 1 does not, because of 0 (rti_remote.c:252-268).  Then 0 says
    that it has no more events.  Federate 1, whose next event is at 7, still gets nothing: the earliest message it may get, at 5,
    is before its next event (rti_common.c:203-233), and 2 is not granted 5 a second time.  So 2 waits for 1 to say whether it
    sends something at 5, and 1 waits for a grant.  Everything sent has arrived, and no federate can start or complete a tag,
    send or receive anything. *)
Definition lock_topo : topo :=
  mkTopo 3 (fun i => match i with 1%nat => [(2%nat, NEVER); (0%nat, NEVER)] | 2%nat => [(1%nat, NEVER)] | _ => [] end) (fun i => match i with 0%nat => [1%nat] | 1%nat => [2%nat] | 2%nat => [1%nat] | _ => [] end).
Definition lock_ports (i : nat) : list PortStatus.port := match i with 1%nat => [cyc_port 2; PortStatus.mkPort NEVER_TAG false 1 NEVER false 0] | 2%nat => [cyc_port 1] | _ => [] end.
Definition lock_run : list zop :=
  [YNet 0 (tg 0); YTake 0; YStart 0 (tg 0); YComplete 0 true; YEvent 0 (tg 5); YNet 0 (tg 5); YTake 0; YTake 0; YTake 0; YNet 1 (tg 0); YNet 2 (tg 0); YTake 1; YTake 2;
   YRecv 1; YRecv 2; YStart 1 (tg 0); YStart 2 (tg 0); YAbsent 1 2 0; YTake 1; YRecv 2; YAbsent 2 1 0; YTake 2; YRecv 1; YComplete 1 true; YComplete 2 true;
   YEvent 1 (tg 7); YNet 1 (tg 7); YEvent 2 (tg 5); YNet 2 (tg 5); YTake 1; YTake 1; YTake 1; YTake 2; YTake 2; YTake 2; YRecv 2; YRecv 2;
   YStart 2 (tg 5); YStart 0 (tg 5); YComplete 0 true; YNet 0 FOREVER_TAG; YTake 0; YTake 0; YTake 0; YAbsent 2 1 0; YTake 2; YRecv 1].
Lemma lock_end k ds : ~ upstream_path lock_topo (fun _ => true) k ds 0.
Proof. intros P. remember 0%nat as e. induction P as [k d e K _|k d v ds e K _ P IH]; [subst e; destruct K|auto]. Qed.
Lemma lock_wired : wired lock_topo lock_ports cyc_index /\ generated lock_topo lock_ports cyc_index.
Proof.
  split.
  { ports_cases; (split; [reflexivity|]; split; [vm_compute; intuition discriminate|]; split; [reflexivity|]; split; [vm_compute; discriminate|]; split; [eexists; split; [cbn; auto|vm_compute; discriminate]|]; split; [intros _; now left|]); [intros _; now left| |intros _; now left].
    intros (ds & P & _). exfalso. apply (lock_end _ _ P). }
  { ports_cases; (split; [reflexivity|]; split; [vm_compute; intuition discriminate|]; split; [reflexivity|]; split; [vm_compute; discriminate|]; split; [cbn; auto|]); split; try reflexivity; try discriminate.
    1, 3: intros _; split; [reflexivity|]; exists [NEVER]; split; [apply path_one; cbn; auto|repeat constructor].
    intros (_ & ds & P & _). exfalso. apply (lock_end _ _ P). }
Qed.
Theorem C77_stuck_refuted : exists tp start pt index ops y, topo_ok tp /\ (forall k, (tp_n tp <= k)%nat -> tp_up tp k = []) /\ wired tp pt index /\ generated tp pt index /\ 0 <= start < FOREVER /\
  timely tp start pt index (init_zsys start pt) ops /\ zrun tp start pt index (init_zsys start pt) ops = Some y /\
  settled tp y /\ z_busy (y_fed y 2%nat) = true /\ z_queue (y_fed y 1%nat) = [mkTag 7 0] /\ r_next (y_rti y 1%nat) = mkTag 7 0 /\
  (forall o y', zstep tp start pt index y o = Some y' -> disturbance tp o).
Proof.
  exists lock_topo, 0, lock_ports, cyc_index, lock_run. destruct (zrun lock_topo 0 lock_ports cyc_index (init_zsys 0 lock_ports) lock_run) as [y|] eqn:E; [|vm_compute in E; discriminate]. exists y.
  split; [topo_cases|]. split; [intros k K; cbn in K; destruct k as [|[|[|k]]]; try lia; reflexivity|]. split; [apply lock_wired|]. split; [apply lock_wired|].
  split; [vm_compute; intuition discriminate|]. split; [apply timelyb_spec; vm_compute; reflexivity|]. split; [reflexivity|]. vm_compute in E. injection E as <-.
  split; [intros i K; destruct i as [|[|[|i]]]; [| | |cbn in K; lia]; vm_compute; auto|]. split; [reflexivity|]. split; [reflexivity|]. split; [reflexivity|].
  intros o y' K. destruct o as [i t|i t|i t|i t|i j p|i j p|i ltc|i|i|i]; try exact Logic.I; cbn [disturbance]; (destruct (le_lt_dec (tp_n lock_topo) i) as [Li|Li]; [exact Li|exfalso]); (destruct i as [|[|[|i]]]; [| | |cbn in Li; lia]).
  - cbn in K. discriminate K.
  - cbn in K. destruct (tag_eqb t _) eqn:C in K; [|discriminate K]. apply Z.eqb_eq, tag_compare_eq in C. subst t. discriminate K.
  - cbn in K. discriminate K.
  - cbn in K. destruct (nth_error (lock_ports j) p); discriminate K.
  - cbn in K. destruct (nth_error (lock_ports j) p); discriminate K.
  - destruct j as [|[|[|j]]]; destruct p as [|[|p]]; cbn in K; try discriminate K; destruct p; discriminate K.
  - cbn in K. destruct (nth_error (lock_ports j) p); discriminate K.
  - cbn in K. destruct (nth_error (lock_ports j) p); discriminate K.
  - destruct j as [|[|[|j]]]; destruct p as [|[|p]]; cbn in K; try discriminate K; destruct p; discriminate K.
  - discriminate K.
  - discriminate K.
  - discriminate K.
  - discriminate K.
  - discriminate K.
  - discriminate K.
  - discriminate K.
  - discriminate K.
  - discriminate K.
Qed.
Print Assumptions C77_stuck_refuted.
