(** Federated execution is deterministic (C74). *)
From Coq Require Import Sorting.Permutation.
From Verif Require Import Base Tag TagSpec TagProofs RtiDelays RtiDelaysSpec Rti Federation FederationSpec FederationProofs FederationProps FedData FedDataSpec FedDataProofs.
Open Scope Z_scope.

(** ** C74.  A federation of deterministic programs gives the same results in every execution: whatever the interleaving of
    federates and coordinator, the delays of the messages and the order in which they arrive, a federate executes the same
    tags with the same inputs.  Of any two executions - which may have come to different points - the history of every
    federate in one of them is a beginning of its history in the other. *)
Theorem C74_deterministic : forall (St V : Type) (g : program St V) tp start ops1 ops2 y1 y2,
  topo_ok tp -> (forall i, (tp_n tp <= i)%nat -> tp_up tp i = []) -> no_zero_delay_cycle tp -> 0 <= start < FOREVER -> order_free g ->
  d_run g tp start (init_dsys g start) ops1 = Some y1 -> d_run g tp start (init_dsys g start) ops2 = Some y2 ->
  forall i, (i < tp_n tp)%nat ->
    (begins (d_trace (d_fed y1 i)) (d_trace (d_fed y2 i)) \/ begins (d_trace (d_fed y2 i)) (d_trace (d_fed y1 i))) /\
    comparable (d_log (d_fed y1 i)) (d_log (d_fed y2 i)) /\
    (length (d_trace (d_fed y1 i)) = length (d_trace (d_fed y2 i)) -> d_state (d_fed y1 i) = d_state (d_fed y2 i)).
Proof.
  intros St V g tp start ops1 ops2 y1 y2 Htp Hr Hz Hs Hf E1 E2 i Hi.
  assert (I0 : DInv St V g tp start (init_dsys g start)) by (apply dinv_init; assumption).
  pose proof (dinv_run St V g tp start Htp Hr Hz Hs ops1 _ _ I0 E1) as I1. pose proof (dinv_run St V g tp start Htp Hr Hz Hs ops2 _ _ I0 E2) as I2.
  destruct (tag_le_total (done St V y1 i) (done St V y2 i)) as [L|L].
  - assert (B : begins (d_trace (d_fed y1 i)) (d_trace (d_fed y2 i))) by (apply (ordered St V g tp start Htp Hr Hz Hs Hf); assumption). split; [left; exact B|]. split; [apply (begins_logs St V g tp start Hf); assumption|]. intros Hl. apply (begins_state St V g tp start Hr Hf); try assumption. symmetry. exact Hl.
  - apply tag_lt_le in L. assert (B : begins (d_trace (d_fed y2 i)) (d_trace (d_fed y1 i))) by (apply (ordered St V g tp start Htp Hr Hz Hs Hf); assumption). split; [right; exact B|]. split; [|intros Hl; symmetry; apply (begins_state St V g tp start Hr Hf); assumption].
    assert (C : comparable (d_log (d_fed y2 i)) (d_log (d_fed y1 i))) by (apply (begins_logs St V g tp start Hf); assumption). destruct C as [C|C]; [right|left]; exact C.
Qed.
Print Assumptions C74_deterministic.

(** When two executions have come to the end, histories, effects and states are the same. *)
Theorem C74_same_results : forall (St V : Type) (g : program St V) tp start ops1 ops2 y1 y2,
  topo_ok tp -> (forall i, (tp_n tp <= i)%nat -> tp_up tp i = []) -> no_zero_delay_cycle tp -> 0 <= start < FOREVER -> order_free g ->
  d_run g tp start (init_dsys g start) ops1 = Some y1 -> d_run g tp start (init_dsys g start) ops2 = Some y2 -> finished tp y1 -> finished tp y2 ->
  forall i, (i < tp_n tp)%nat -> Forall2 same_entry (d_trace (d_fed y1 i)) (d_trace (d_fed y2 i)) /\ d_state (d_fed y1 i) = d_state (d_fed y2 i) /\ d_log (d_fed y1 i) = d_log (d_fed y2 i).
Proof.
  intros St V g tp start ops1 ops2 y1 y2 Htp Hr Hz Hs Hf E1 E2 F1 F2 i Hi.
  assert (I0 : DInv St V g tp start (init_dsys g start)) by (apply dinv_init; assumption).
  pose proof (dinv_run St V g tp start Htp Hr Hz Hs ops1 _ _ I0 E1) as I1. pose proof (dinv_run St V g tp start Htp Hr Hz Hs ops2 _ _ I0 E2) as I2.
  split; [apply (finished_traces St V g tp start Htp Hr Hz Hf); assumption|]. apply (finished_results St V g tp start Htp Hr Hz Hf); assumption.
Qed.
Print Assumptions C74_same_results.

(** No input is lost, duplicated, invented, or seen at a wrong tag: at every tag that a federate has passed it has seen
    exactly the events from outside with this tag and the messages and actions that were sent or scheduled for it. *)
Theorem C74_inputs : forall (St V : Type) (g : program St V) tp start ops y,
  topo_ok tp -> (forall i, (tp_n tp <= i)%nat -> tp_up tp i = []) -> no_zero_delay_cycle tp -> 0 <= start < FOREVER ->
  d_run g tp start (init_dsys g start) ops = Some y ->
  forall i t, (i < tp_n tp)%nat -> smallb tp start t = true -> tag_le t (f_done (y_fed (d_sys y) i)) ->
    Permutation (map snd (at_tag t (inputs_for g tp y i))) (present t (d_trace (d_fed y i))).
Proof.
  intros St V g tp start ops y Htp Hr Hz Hs E i t Hi Sm Le. assert (I0 : DInv St V g tp start (init_dsys g start)) by (apply dinv_init; assumption). pose proof (dinv_run St V g tp start Htp Hr Hz Hs ops _ _ I0 E) as I1.
  apply (inputs_seen St V g tp start Hr y i t I1); [|exact Le]. apply smallb_spec. exact Sm.
Qed.
Print Assumptions C74_inputs.

(** Every federate does what its program says: its state is the one that its program gives for its history, and the effects
    performed are those of the program, in order and at their tags, all but those of the current tag that are still to come. *)
Theorem C74_follows_program : forall (St V : Type) (g : program St V) tp start ops y,
  topo_ok tp -> (forall i, (tp_n tp <= i)%nat -> tp_up tp i = []) -> no_zero_delay_cycle tp -> 0 <= start < FOREVER ->
  d_run g tp start (init_dsys g start) ops = Some y ->
  forall i, (i < tp_n tp)%nat ->
    exists rest, run_program g i (g_init g i) (d_trace (d_fed y i)) = (d_state (d_fed y i), d_log (d_fed y i) ++ rest) /\
    (forall e, In e rest -> f_cur (y_fed (d_sys y) i) = Some (fst e)).
Proof.
  intros St V g tp start ops y Htp Hr Hz Hs E i Hi. assert (I0 : DInv St V g tp start (init_dsys g start)) by (apply dinv_init; assumption). pose proof (dinv_run St V g tp start Htp Hr Hz Hs ops _ _ I0 E) as I1.
  destruct (obeys St V g tp start y i I1) as (E1 & E2). eexists. split; [exact E1|]. intros e He. apply in_map_iff in He. destruct He as (x & <- & Hx). cbn [fst]. apply E2. intros K. rewrite K in Hx. destruct Hx.
Qed.
Print Assumptions C74_follows_program.

(** Federates 0 and 1 in a loop (FederationProps.v): no delay from 0 to 1, a delay of 10 back. *)
Definition value (x : input Z) : Z := match x with IExt v | IOwn v | IMsg _ v => v end.
Definition total (l : list (input Z)) : Z := fold_right (fun x s => value x + s) 0 l.
Lemma total_perm l1 l2 : Permutation l1 l2 -> total l1 = total l2.
Proof. unfold total. intros H. induction H; cbn [fold_right] in *; lia. Qed.
Definition loop_program : program Z Z :=
  mkProgram (fun _ => 0) (fun i => match i with 0%nat => [(mkTag 0 0, 1)] | 1%nat => [(mkTag 0 0, 5)] | _ => [] end)
    (fun i st t l => (st * 2 + total l, if ttime t =? 0 then match i with 0%nat => [ESend 1 NEVER (total l)] | _ => [ESend 0 10 (total l); ESched (mkTag 3 0) 7] end else [])).
Lemma loop_order_free : order_free loop_program.
Proof. intros i st t l1 l2 H. cbn [loop_program g_react]. rewrite (total_perm _ _ H). reflexivity. Qed.
Definition fed_run1 : list fop :=
  [FEvent 0 (mkTag 0 0); FNet 0 (mkTag 0 0); FEvent 1 (mkTag 0 0); FNet 1 (mkTag 0 0); RTake 0; RTake 1; FRecv 0; FStart 0 (mkTag 0 0); FSend 0 1 NEVER; FComplete 0 true; FNet 0 FOREVER_TAG;
   RTake 0; RTake 0; RTake 0; RTake 0; FRecv 1; FRecv 1; FStart 1 (mkTag 0 0); FSend 1 0 10; FSched 1 (mkTag 3 0); FComplete 1 true; FNet 1 (mkTag 3 0); RTake 1; RTake 1; RTake 1; RTake 1; FRecv 0; FNet 0 (mkTag 10 0); RTake 0; FRecv 1;
   FStart 1 (mkTag 3 0); FComplete 1 true; FNet 1 FOREVER_TAG; RTake 1; RTake 1; RTake 1; FRecv 0; FStart 0 (mkTag 10 0); FComplete 0 true].
Definition fed_run2 : list fop :=
  [FEvent 0 (mkTag 0 0); FNet 0 (mkTag 0 0); FNet 1 (mkTag 0 0); RTake 1; RTake 0; FRecv 0; FStart 0 (mkTag 0 0); FSend 0 1 NEVER; FComplete 0 true; RTake 0; RTake 0; FRecv 1; FEvent 1 (mkTag 0 0); FNet 0 FOREVER_TAG;
   RTake 0; RTake 0; FRecv 1; FStart 1 (mkTag 0 0); FSend 1 0 10; RTake 1; FRecv 0; FSched 1 (mkTag 3 0)].
Definition fed_run3 : list fop := fed_run2 ++
  [FComplete 1 true; FNet 0 (mkTag 10 0); FNet 1 (mkTag 3 0); RTake 0; RTake 1; RTake 1; RTake 1; FRecv 1; FStart 1 (mkTag 3 0); FComplete 1 true; FNet 1 FOREVER_TAG; RTake 1; RTake 1; RTake 1; FRecv 0; FStart 0 (mkTag 10 0)].
Definition fed_results (r : option (dsys Z Z)) (i : nat) : option (list (tag * list (input Z)) * Z) :=
  match r with Some y => Some (d_trace (d_fed y i), d_state (d_fed y i)) | None => None end.
(** The second execution stops in the middle; in the others the inputs of federate 1 arrive in another order. *)
Example C74_ex :
  fed_results (d_run loop_program loop_topo 0 (init_dsys loop_program 0) fed_run1) 0 = Some ([(mkTag 0 0, [IExt 1]); (mkTag 10 0, [IMsg 1 6])], 8) /\
  fed_results (d_run loop_program loop_topo 0 (init_dsys loop_program 0) fed_run1) 1 = Some ([(mkTag 0 0, [IMsg 0 1; IExt 5]); (mkTag 3 0, [IOwn 7])], 19) /\
  fed_results (d_run loop_program loop_topo 0 (init_dsys loop_program 0) fed_run2) 0 = Some ([(mkTag 0 0, [IExt 1])], 1) /\
  fed_results (d_run loop_program loop_topo 0 (init_dsys loop_program 0) fed_run2) 1 = Some ([(mkTag 0 0, [IExt 5; IMsg 0 1])], 6) /\
  fed_results (d_run loop_program loop_topo 0 (init_dsys loop_program 0) fed_run3) 1 = Some ([(mkTag 0 0, [IExt 5; IMsg 0 1]); (mkTag 3 0, [IOwn 7])], 19).
Proof. vm_compute. auto. Qed.
Example C74_ex_finished : exists y1 y2, d_run loop_program loop_topo 0 (init_dsys loop_program 0) fed_run1 = Some y1 /\ d_run loop_program loop_topo 0 (init_dsys loop_program 0) fed_run3 = Some y2 /\ finished loop_topo y1 /\ finished loop_topo y2.
Proof.
  destruct (d_run loop_program loop_topo 0 (init_dsys loop_program 0) fed_run1) as [y1|] eqn:E1; [|vm_compute in E1; discriminate]. destruct (d_run loop_program loop_topo 0 (init_dsys loop_program 0) fed_run3) as [y2|] eqn:E2; [|vm_compute in E2; discriminate].
  exists y1, y2. split; [reflexivity|]. split; [reflexivity|]. vm_compute in E1, E2. injection E1 as <-. injection E2 as <-. split; intros i Hi; cbn in Hi; (destruct i as [|[|i]]; [| |lia]); vm_compute; auto.
Qed.
