(** C41, C42: the coordinator's grants. *)
From Verif Require Import Base Tag TagSpec TagProofs Pqueue RtiDelays Rti RtiSpec RtiProofs.
Open Scope Z_scope.

(** ** C41.  In every history of coordinator inputs, with any grants lost to broken sockets: in the log of what a federate
    with upstream connections is sent, each TAG is later than all TAGs before it and not earlier than any PTAG before it;
    each PTAG is later than all PTAGs and TAGs before it. *)
Theorem C41_order : forall tp start l s e, rti_run tp start init_rti l = Some s -> tp_up tp e <> [] -> grants_ordered true (r_sent (s e)).
Proof.
  intros tp start l s e E Hu. pose proof (order_run tp start l init_rti s (order_init tp) E e) as (H & _). unfold strict_node in H. destruct (tp_up tp e); [contradiction|exact H].
Qed.
Print Assumptions C41_order.
(** Without upstream connections the PTAGs are increasing, and no TAG is below a PTAG. *)
Theorem C41_order_source : forall tp start l s e, rti_run tp start init_rti l = Some s -> grants_ordered false (r_sent (s e)).
Proof.
  intros tp start l s e E. pose proof (order_run tp start l init_rti s (order_init tp) E e) as (H & _). intros l1 m l2 El m' Hin. specialize (H l1 m l2 El m' Hin).
  destruct m, m'; cbn in *; try exact H; try exact I; discriminate.
Qed.
Print Assumptions C41_order_source.
(** After a federate has left (by resignation, failure or a failed write), it is sent nothing and does not come back. *)
Theorem C41_left : forall tp start l1 l2 s1 s2 e, rti_run tp start init_rti l1 = Some s1 -> rti_run tp start s1 l2 = Some s2 ->
  r_connected (s1 e) = false -> r_connected (s2 e) = false /\ r_sent (s2 e) = r_sent (s1 e).
Proof. intros tp start l1 l2 s1 s2 e _ E2 H. eapply left_run; [split; [exact H|reflexivity]|exact E2]. Qed.
Print Assumptions C41_left.

(** Node 0 feeds the zero-delay cycles 1-2 and 3-4 with a delay of 100. *)
Definition two_cycles : topo :=
  mkTopo 5 (fun i => match i with 1%nat => [(0%nat, 100); (2%nat, NEVER)] | 2%nat => [(1%nat, NEVER)] | 3%nat => [(0%nat, 100); (4%nat, NEVER)] | 4%nat => [(3%nat, NEVER)] | _ => [] end)
           (fun i => match i with 0%nat => [1; 3]%nat | 1%nat => [2%nat] | 2%nat => [1%nat] | 3%nat => [4%nat] | 4%nat => [3%nat] | _ => [] end).
Definition all_ok (l : list rop) : list (rop * (nat -> bool)) := map (fun o => (o, fun _ => true)) l.
Definition log_of (r : option rti) (e : nat) : option (list rmsg) := match r with Some s => Some (r_sent (s e)) | None => None end.
Definition two_cycles_run : list rop :=
  [RNet 0 (mkTag 0 0); RNet 2 (mkTag 50 0); RNet 1 (mkTag 50 0); RNet 0 (mkTag 10 0); RNet 4 (mkTag 20 0); RNet 3 (mkTag 20 0); RLtc 0 (mkTag 10 0); RNet 0 FOREVER_TAG; RLtc 2 (mkTag 50 0); RResign 2; RNet 1 (mkTag 60 0)].
Example C41_ex : log_of (rti_run two_cycles 0 init_rti (all_ok two_cycles_run)) 1 = Some [MPtag (mkTag 0 0); MPtag (mkTag 50 0); MTag (mkTag 50 0); MTag (mkTag 109 UINT_MAX)] /\
  log_of (rti_run two_cycles 0 init_rti (all_ok two_cycles_run)) 3 = Some [MPtag (mkTag 0 0); MPtag (mkTag 20 0)].
Proof. vm_compute. auto. Qed.
(** A federate without upstream connections can be sent a TAG that is lower than the one before: its own NET lowers the
    recorded grant. *)
Theorem C41_source_refuted : exists tp l s e l1 l2 t t', rti_run tp 0 init_rti l = Some s /\ r_sent (s e) = l1 ++ MTag t :: l2 /\ In (MTag t') l2 /\ tag_lt t' t.
Proof.
  assert (K : log_of (rti_run two_cycles 0 init_rti (all_ok two_cycles_run)) 0 = Some [MTag (mkTag 50 0); MTag (mkTag 20 0)]) by (vm_compute; reflexivity).
  unfold log_of in K. destruct (rti_run two_cycles 0 init_rti (all_ok two_cycles_run)) as [s|] eqn:E; [|discriminate]. injection K as K.
  exists two_cycles, (all_ok two_cycles_run), s, 0%nat, [], [MTag (mkTag 20 0)], (mkTag 50 0), (mkTag 20 0).
  split; [exact E|]. split; [exact K|]. split; [now left|]. left; cbn; lia.
Qed.
Print Assumptions C41_source_refuted.

(** ** C42.  A message with tag [t] (not before the start time) is forwarded from [i] to [j], which has not confirmed [t];
    as long as [j] does not confirm a tag at or after [t], and stays connected, the next event recorded for [j] is
    not later than [t]. *)
Theorem C42_in_transit : forall tp start l1 s1 i j t ok l2 s2, rti_run tp start init_rti l1 = Some s1 ->
  r_connected (s1 i) = true -> r_connected (s1 j) = true -> tag_lt (r_completed (s1 j)) t -> tag_le (mkTag start 0) t ->
  rti_run tp start s1 ((RMsg i j t, ok) :: l2) = Some s2 -> (forall t' ok', In (RRemove j t', ok') l2 -> tag_lt t' t) ->
  r_connected (s2 j) = true -> tag_le (r_next (s2 j)) t.
Proof.
  intros tp start l1 s1 i j t ok l2 s2 _ Ci Cj Hc Ht E Hr Hc2. cbn [rti_run] in E. destruct (rti_step tp start ok s1 (RMsg i j t)) as [s|] eqn:E1; [|discriminate].
  eapply (held_run j t tp start Ht l2 s s2); [eapply held_forward; eassumption|exact Hr|exact E|exact Hc2].
Qed.
Print Assumptions C42_in_transit.
Example C42_ex : match rti_run two_cycles 0 init_rti (all_ok [RNet 0 (mkTag 0 0); RNet 1 (mkTag 500 0); RMsg 0 1 (mkTag 100 0); RNet 1 (mkTag 400 0); RMsg 0 1 (mkTag 150 3); RLtc 1 (mkTag 100 0); RRemove 1 (mkTag 100 0); RNet 1 (mkTag 300 0)]) with
  | Some s => r_next (s 1%nat) = mkTag 150 3 /\ r_transit (s 1%nat) = [mkTag 150 3] /\ r_completed (s 1%nat) = mkTag 100 0 | None => False end.
Proof. vm_compute. auto. Qed.
