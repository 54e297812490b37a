(** Progress of a federation under centralized coordination (C73). *)
From Verif Require Import Base Tag TagSpec TagProofs RtiDelays RtiDelaysSpec Rti Federation FederationSpec FederationProofs FederationProps Progress ProgressSpec ProgressProofs.
Open Scope Z_scope.

(** ** C73.  The coordination does not deadlock.  In every execution of a federation without zero-delay cycles - any number
    of federates, any connections, any events, any interleaving, with federates leaving at any time - when every message
    has arrived and every federate has announced its next event, and some federate still has an event, then some federate
    may start the tag of its next event.  Missing from the full statement: the case that a federate with downstream
    federates has been granted FOREVER, in which it is false (below). *)
Theorem C73_progress_partial : forall tp start ops y, topo_ok tp -> (forall i, (tp_n tp <= i)%nat -> tp_up tp i = []) -> no_zero_delay_cycle tp -> down_ok tp -> 0 <= start < FOREVER ->
  p_run tp start (init_psys start) ops = Some y -> delivered tp (p_sys y) -> waiting tp y -> none_released tp (p_sys y) -> has_event tp (p_sys y) -> goes_on tp start y.
Proof.
  intros tp start ops y Htp Hr Hz Hd Hs E D W N Ev. apply go_on; try assumption. eapply (pinv_run tp start Htp Hr Hz Hs Hd ops); [|exact E]. apply pinv_init; assumption.
Qed.
Print Assumptions C73_progress_partial.

(** Federates 0 and 1 in a loop (FederationProps.v), after an exchange of messages: 1 has an event at 3, 0 a message at 10. *)
Definition wait_run : list fop :=
  [FEvent 0 (mkTag 0 0); FNet 0 (mkTag 0 0); FEvent 1 (mkTag 0 0); FNet 1 (mkTag 0 0); RTake 0; RTake 1; FRecv 0; FStart 0 (mkTag 0 0); FSend 0 1 NEVER; FComplete 0 false; FNet 0 FOREVER_TAG;
   RTake 0; RTake 0; FRecv 1; FRecv 1; FStart 1 (mkTag 0 0); FSend 1 0 10; FSched 1 (mkTag 3 0); FComplete 1 true; FNet 1 (mkTag 3 0); RTake 1; RTake 1; RTake 1; RTake 1; FRecv 0; FNet 0 (mkTag 10 0); RTake 0; FRecv 0; FRecv 1].
Example C73_ex : down_ok loop_topo /\ exists y, p_run loop_topo 0 (init_psys 0) wait_run = Some y /\ delivered loop_topo (p_sys y) /\ waiting loop_topo y /\ none_released loop_topo (p_sys y) /\ has_event loop_topo (p_sys y).
Proof.
  split.
  - intros k e. destruct k as [|[|k]], e as [|[|e]]; cbn; split; try (intros []; fail); try (intros (d & []); fail); try (intros (d & [K|[]]); congruence); try (intros [K|[]]; congruence); intros; try (left; reflexivity); eexists; left; reflexivity.
  - destruct (p_run loop_topo 0 (init_psys 0) wait_run) as [y|] eqn:E; [|vm_compute in E; discriminate]. exists y. split; [reflexivity|]. vm_compute in E. injection E as <-.
    split; [|split; [|split]].
    + intros i Hi. destruct i as [|[|i]]; [| |cbn in Hi; lia]; vm_compute; auto.
    + intros i Hi Ha. destruct i as [|[|i]]; [| |cbn in Hi; lia]; (split; [reflexivity|]); intros t [(K & _)|(K & _)]; try discriminate K; left; cbn in K; destruct K as [<-|[]]; vm_compute; auto; intuition discriminate.
    + intros i Hi Ha _. destruct i as [|[|i]]; [| |cbn in Hi; lia]; vm_compute; auto.
    + exists 1%nat. split; [cbn; lia|]. split; [reflexivity|]. vm_compute. discriminate.
Qed.

(** ** Finding.  Federates 0, 1 and 2 in a chain without delays; 0 leaves.  Federate 1 then has no upstream federate that
    is still there, and is granted FOREVER.  It has no events; because its next tag is granted it announces nothing
    (federate.c:2395-2401), and keepalive is forced for federates.  The coordinator keeps assuming that it may produce an
    event at the start, so federate 2, which has an event, is never granted anything.  Nothing can happen any more except
    that a federate gets an event from outside, leaves, or repeats its NET. *)
Definition chain_topo : topo :=
  mkTopo 3 (fun i => match i with 1%nat => [(0%nat, NEVER)] | 2%nat => [(1%nat, NEVER)] | _ => [] end) (fun i => match i with 0%nat => [1%nat] | 1%nat => [2%nat] | _ => [] end).
Definition stuck_run : list fop := [FResign 0; RTake 0; FRecv 1; FEvent 2 (mkTag 5 0); FNet 2 (mkTag 5 0); RTake 2].
Theorem C73_progress_refuted : exists tp start ops y, topo_ok tp /\ (forall i, (tp_n tp <= i)%nat -> tp_up tp i = []) /\ no_zero_delay_cycle tp /\ down_ok tp /\ 0 <= start < FOREVER /\
  p_run tp start (init_psys start) ops = Some y /\ delivered tp (p_sys y) /\ waiting tp y /\ has_event tp (p_sys y) /\ (forall o y', p_step tp start y o = Some y' -> idle_op o).
Proof.
  exists chain_topo, 0, stuck_run. destruct (p_run chain_topo 0 (init_psys 0) stuck_run) as [y|] eqn:E; [|vm_compute in E; discriminate]. exists y.
  split; [|split; [|split; [|split; [|split; [|split]]]]].
  - split; [|reflexivity]. intros i u d H. do 3 (destruct i as [|i]; [cbn in H; repeat (destruct H as [H|H]; [injection H as <- <-; split; [cbn; lia|vm_compute; intuition discriminate]|]); destruct H|]). destruct H.
  - intros i H. cbn in H. destruct i as [|[|[|i]]]; try lia; reflexivity.
  - assert (K : forall k ds e, upstream_path chain_topo (fun _ => true) k ds e -> (k < e)%nat).
    { intros k ds e P. induction P as [k d e H _|k d v ds e H _ P IH].
      - destruct e as [|[|[|e]]]; cbn in H; try destruct H as [H|[]]; try injection H as <- <-; try lia; destruct H.
      - destruct v as [|[|[|v]]]; cbn in H; try destruct H as [H|[]]; try injection H as <- <-; try lia; destruct H. }
    intros e ds P. apply K in P. lia.
  - intros k e. destruct k as [|[|[|k]]], e as [|[|[|e]]]; cbn; split; try (intros []; fail); try (intros (d & []); fail); try (intros (d & [K|[]]); congruence); try (intros [K|[]]; congruence); intros; try (left; reflexivity); eexists; left; reflexivity.
  - vm_compute. intuition discriminate.
  - reflexivity.
  - vm_compute in E. injection E as <-. split; [|split; [|split]].
    + intros i Hi. destruct i as [|[|[|i]]]; [| | |cbn in Hi; lia]; vm_compute; auto.
    + intros i Hi Ha. destruct i as [|[|[|i]]]; [discriminate Ha| | |cbn in Hi; lia]; (split; [reflexivity|]).
      * intros t [(_ & ->)|(K & _)]; [left; vm_compute; auto; intuition discriminate|destruct K].
      * intros t [(K & _)|(K & _)]; [discriminate K|]. cbn in K. destruct K as [<-|[]]. right. reflexivity.
    + exists 2%nat. split; [cbn; lia|]. split; [reflexivity|]. vm_compute. discriminate.
    + intros o y' K. destruct o as [i t|i t|i t|i t|i j d|i ltc|i|i|i]; try exact Logic.I; exfalso; unfold p_step in K; cbn [p_allowed] in K.
      * destruct i as [|[|[|i]]]; cbn in K; try discriminate K. unfold tag_eqb, tag_leb in K. cbn in K. destruct (tag_compare t _ =? 0) eqn:C; cbn in K; [|discriminate K]. apply Z.eqb_eq, tag_compare_eq in C. subst t. discriminate K.
      * destruct i as [|[|[|i]]]; cbn in K; discriminate K.
      * destruct i as [|[|[|i]]]; cbn in K; discriminate K.
      * destruct i as [|[|[|i]]]; cbn in K; destruct ltc; cbn in K; discriminate K.
      * destruct i as [|[|[|i]]]; cbn in K; discriminate K.
      * destruct i as [|[|[|i]]]; cbn in K; discriminate K.
Qed.
Print Assumptions C73_progress_refuted.
