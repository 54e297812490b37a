(** The safety of grants in centralized coordination (C40). *)
From Verif Require Import Base Tag TagSpec TagProofs RtiDelays RtiDelaysSpec Rti Federation FederationSpec FederationProofs.
Open Scope Z_scope.

(** ** C40.  In every execution of a federation without zero-delay cycles - any number of federates, any connections, any
    events, any interleaving of the federates, the channels and the coordinator, with federates leaving at any time -
    every message forwarded to a federate after a TAG has a tag later than the TAG. *)
Theorem C40_safe : forall tp start ops y j, topo_ok tp -> (forall i, (tp_n tp <= i)%nat -> tp_up tp i = []) -> no_zero_delay_cycle tp -> 0 <= start < FOREVER ->
  sys_run tp start (init_sys start) ops = Some y -> grants_respected (r_sent (y_rti y j)).
Proof.
  intros tp start ops y j Htp Hr Hz Hs E. apply (l_log tp start j (y_fed y j)). apply (i_local tp start (y_fed y) (y_rti y)). eapply (inv_run tp start Htp Hr Hz Hs ops); [|exact E]. apply inv_init; assumption.
Qed.
Print Assumptions C40_safe.

(** Hence no message is late for the federate that receives it: everything in its queue and everything forwarded to it
    that has not arrived yet is later than every tag it has started. *)
Theorem C40_not_late : forall tp start ops y j g, topo_ok tp -> (forall i, (tp_n tp <= i)%nat -> tp_up tp i = []) -> no_zero_delay_cycle tp -> 0 <= start < FOREVER ->
  sys_run tp start (init_sys start) ops = Some y -> f_alive (y_fed y j) = true ->
  In g (f_queue (y_fed y j)) \/ In (MMsg g) (skipn (f_rcvd (y_fed y j)) (r_sent (y_rti y j))) -> tag_lt (f_done (y_fed y j)) g.
Proof.
  intros tp start ops y j g Htp Hr Hz Hs E Ha Hg. assert (L : local tp start j (y_fed y j) (y_rti y j)).
  { apply (i_local tp start (y_fed y) (y_rti y)). eapply (inv_run tp start Htp Hr Hz Hs ops); [|exact E]. apply inv_init; assumption. }
  destruct Hg as [Hg|Hg]; [apply (l_queue _ _ _ _ _ L); assumption|apply (l_pend _ _ _ _ _ L); assumption].
Qed.
Print Assumptions C40_not_late.

(** Federates 0 and 1 in a loop: no delay from 0 to 1, a delay of 10 back. *)
Definition loop_topo : topo :=
  mkTopo 2 (fun i => match i with 0%nat => [(1%nat, 10)] | 1%nat => [(0%nat, NEVER)] | _ => [] end) (fun i => match i with 0%nat => [1%nat] | 1%nat => [0%nat] | _ => [] end).
Lemma loop_topo_ok : topo_ok loop_topo /\ (forall i, (tp_n loop_topo <= i)%nat -> tp_up loop_topo i = []) /\ no_zero_delay_cycle loop_topo.
Proof.
  split; [|split].
  - split; [|reflexivity]. intros i u d H. do 2 (destruct i as [|i]; [cbn in H; repeat (destruct H as [H|H]; [injection H as <- <-; split; [cbn; lia|vm_compute; intuition discriminate]|]); destruct H|]). destruct H.
  - intros i H. cbn in H. destruct i as [|[|i]]; [lia|lia|reflexivity].
  - assert (K : forall k ds e, upstream_path loop_topo (fun _ => true) k ds e -> (exists d, In d ds /\ 0 <= d) \/ (k = 0%nat /\ e = 1%nat)).
    { intros k ds e P. induction P as [k d e H _|k d v ds e H _ P IH].
      - destruct e as [|[|e]]; cbn in H; [| |destruct H]; destruct H as [H|[]]; injection H as <- <-; [left; exists 10; split; [now left|lia]|right; auto].
      - destruct IH as [(d' & H1 & H2)|(-> & ->)]; [left; exists d'; split; [now right|exact H2]|]. cbn in H. destruct H as [H|[]]. injection H as <- <-. left. exists 10. split; [now left|lia]. }
    intros e ds P. destruct (K _ _ _ P) as [K1|(-> & K1)]; [exact K1|discriminate].
Qed.
Definition loop_run : list fop :=
  [FEvent 0 (mkTag 0 0); FNet 0 (mkTag 0 0); FEvent 1 (mkTag 0 0); FNet 1 (mkTag 0 0); RTake 0; RTake 1; FRecv 0; FStart 0 (mkTag 0 0); FSend 0 1 NEVER; FComplete 0 true; FNet 0 FOREVER_TAG;
   RTake 0; RTake 0; RTake 0; RTake 0; FRecv 1; FRecv 1; FStart 1 (mkTag 0 0); FSend 1 0 10; FSched 1 (mkTag 3 0); FComplete 1 true; FNet 1 (mkTag 3 0); RTake 1; RTake 1; RTake 1; RTake 1; FRecv 0; FNet 0 (mkTag 10 0); RTake 0; FRecv 1].
Definition sys_log (r : option sys) (e : nat) : option (list rmsg * tag * list tag * nat) :=
  match r with Some y => Some (r_sent (y_rti y e), f_done (y_fed y e), f_queue (y_fed y e), f_rcvd (y_fed y e)) | None => None end.
Example C40_ex :
  sys_log (sys_run loop_topo 0 (init_sys 0) loop_run) 0 = Some ([MTag (mkTag 0 0); MMsg (mkTag 10 0); MTag (mkTag 10 0)], mkTag 0 0, [mkTag 10 0], 2%nat) /\
  sys_log (sys_run loop_topo 0 (init_sys 0) loop_run) 1 = Some ([MMsg (mkTag 0 0); MTag (mkTag 0 0); MTag (mkTag 3 0)], mkTag 0 0, [mkTag 3 0], 3%nat).
Proof. vm_compute. auto. Qed.
