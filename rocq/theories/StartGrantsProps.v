(** * C91: the start of a federation, thread by thread *)
From Verif Require Import Base Tag TagSpec ClockRounds StartGrants StartGrantsSpec StartGrantsProofs.
Local Open Scope nat_scope.

(** Whatever the schedule, the first thing that a federate is sent is its start time, it is
    sent only one, and after it nothing but grants follow. *)
Theorem C91_start_first : forall tp l i, Forall (within tp) l -> begins_with_start (sent (run tp init l) i).
Proof. exact start_first. Qed.
Print Assumptions C91_start_first.

(** Whatever the schedule, and however long a grant has waited for the start time of its
    federate, what has been granted has been completed by all upstream federates that are
    still there. *)
Theorem C91_safe_partial : forall tp l e t, Forall (within tp) l -> In (Grant t) (sent (run tp init l) e) -> safe tp (run tp init l) e t.
Proof. exact grants_safe. Qed.
Print Assumptions C91_safe_partial.

(** When every federate proposes a start time and none dies, the coordinator's threads come
    to rest after finitely many operations of their own, and then every federate has been
    sent its start time and no thread waits for anything but messages. *)
Theorem C91_all_start_partial : forall tp l, inside tp -> Forall (within tp) l -> Forall notdie l -> (forall i, i < size tp -> In (Timestamp i) l) ->
  (exists b, forall l', Forall own l' -> Forall (within tp) l' -> possible tp (run tp init l) l' -> length l' <= b) /\
  (quiet tp (run tp init l) -> forall i, i < size tp -> thread_of (run tp init l) i = Listen /\ exists g, sent (run tp init l) i = g ++ [Start] /\ Forall (fun m => m <> Start) g).
Proof.
  intros tp l WF W N TS. split.
  - exists (work tp (run tp init l)). intros l' O W' P. apply own_bounded; assumption.
  - intros Q. exact (all_start tp l W N TS WF Q).
Qed.
Print Assumptions C91_all_start_partial.

(** No grant is lost while threads wait: when none of them holds a grant, every tag that all
    upstream federates of a federate have completed has been granted to it, by itself or
    with a later one. *)
Theorem C91_granted_partial : forall tp l e t, linked tp -> Forall (within tp) l -> Forall notdie l -> ups tp e <> [] ->
  (forall i, i < size tp -> forall e' t' r, thread_of (run tp init l) i <> Walk e' t' r) ->
  tag_lt NEVER_TAG t -> tag_le t FOREVER_TAG -> (forall u, In u (ups tp e) -> tag_le t (completed (run tp init l) u)) ->
  exists t', tag_le t t' /\ In (Grant t') (sent (run tp init l) e).
Proof. exact all_granted. Qed.
Print Assumptions C91_granted_partial.

(** When nobody completes a tag before all federates have been marked as started, grants
    come in increasing order. *)
Theorem C91_order_partial : forall tp l1 l2, inside tp -> Forall (within tp) l1 -> Forall notltc l1 -> Forall (within tp) l2 ->
  (forall i, i < size tp -> stat (run tp init l1) i <> Pending) -> forall e, ordered (sent (run tp init (l1 ++ l2)) e).
Proof. exact in_order. Qed.
Print Assumptions C91_order_partial.

(** ** Three federates upstream of a fourth *)
Definition four : topology := mkTopology 4 (fun e => if Nat.eqb e 3 then [0; 1; 2] else []) (fun i => if Nat.ltb i 3 then [3] else []).
Definition tg (t : Z) : tag := mkTag t 0.
Definition all_propose : list op := map Timestamp [0; 1; 2; 3].
Definition start_of (i : nat) : list op := [Wake i; Write i; Mark i].
Definition late : list op :=
  all_propose ++ start_of 0 ++ start_of 1 ++ start_of 2 ++ [Ltc 0 (tg 5); Ltc 1 (tg 7); Ltc 2 (tg 10); Ltc 0 (tg 8); Write 3; Mark 3; Resume 0; Resume 2].
Lemma four_inside : inside four.
Proof. intros i e L X. unfold four in *. cbn in *. destruct (i <=? 2); [|contradiction]. destruct X as [<-|[]]. lia. Qed.
Ltac ops := repeat (apply Forall_cons; [cbn; first [lia|exact Logic.I]|]); apply Forall_nil.

(** The full statement of [C91_order_partial], for every schedule, is false: a grant is
    compared with the last one before its thread waits for the start time of the federate
    (rti_remote.c:182-191), and not again afterwards, so that threads that waited may send
    their grants in any order, and the coordinator's record of the last grant goes back. *)
Theorem C91_order_refuted : exists tp l e, inside tp /\ Forall (within tp) l /\ Forall notdie l /\
  sent (run tp init l) e = [Grant (tg 5); Grant (tg 7); Start] /\ last (run tp init l) e = tg 5 /\ ~ ordered (sent (run tp init l) e).
Proof.
  exists four, late, 3. split; [exact four_inside|]. split; [ops|]. split; [ops|].
  assert (X : sent (run four init late) 3 = [Grant (tg 5); Grant (tg 7); Start]) by (vm_compute; reflexivity).
  split; [exact X|]. split; [vm_compute; reflexivity|]. rewrite X. cbn [ordered]. intros [H _].
  specialize (H (tg 7) (or_introl eq_refl)). destruct H as [H|[H _]]; cbn in H; lia.
Qed.
Print Assumptions C91_order_refuted.

(** Nor is a tag granted only once. *)
Definition twice : list op :=
  all_propose ++ start_of 0 ++ start_of 1 ++ start_of 2 ++ [Ltc 0 (tg 5); Ltc 1 (tg 7); Ltc 2 (tg 10); Ltc 1 (tg 9); Write 3; Mark 3; Resume 1; Resume 2].
Theorem C91_once_refuted : exists tp l e, inside tp /\ Forall (within tp) l /\ Forall notdie l /\
  sent (run tp init l) e = [Grant (tg 5); Grant (tg 5); Start].
Proof. exists four, twice, 3. split; [exact four_inside|]. split; [ops|]. split; [ops|]. vm_compute. reflexivity. Qed.
Print Assumptions C91_once_refuted.

(** A federate that dies before it has proposed a start time: nobody is ever sent anything
    (rti_remote.c:805-809: the others wait without a limit). *)
Theorem C91_crash_refuted : forall tp l1 l2 k, Forall (within tp) l1 -> Forall (within tp) l2 -> k < size tp -> thread_of (run tp init l1) k = Propose ->
  forall i, sent (run tp init (l1 ++ Die k :: l2)) i = [].
Proof. exact nobody_starts. Qed.
Print Assumptions C91_crash_refuted.

(** ** The hypotheses can be met *)
Definition usual : list op := all_propose ++ start_of 0 ++ start_of 1 ++ start_of 2 ++ [Write 3; Mark 3].
Definition usual_tags : list op := [Ltc 0 (tg 5); Ltc 1 (tg 7); Ltc 2 (tg 10); Ltc 0 (tg 8); Die 0].
Example C91_usual : Forall (within four) usual /\ Forall notltc usual /\ Forall notdie usual /\ Forall (within four) usual_tags /\
  (forall i, i < size four -> In (Timestamp i) usual /\ stat (run four init usual) i <> Pending) /\ quiet four (run four init usual) /\
  map (sent (run four init (usual ++ usual_tags))) [0; 3] = [[Start]; [Grant (tg 7); Grant (tg 5); Start]].
Proof.
  split; [ops|]. split; [ops|]. split; [ops|]. split; [ops|]. split; [|split].
  - intros i L. cbn [size four] in L. destruct i as [|[|[|[|i]]]]; [| | | |lia]; (split; [cbn; tauto|vm_compute; discriminate]).
  - intros i L. cbn [size four] in L. destruct i as [|[|[|[|i]]]]; [| | | |lia]; vm_compute; repeat split; reflexivity.
  - vm_compute. reflexivity.
Qed.
Example C91_waits : possible four init (all_propose ++ [Wake 0; Write 0]) /\ sent (run four init (all_propose ++ [Wake 0; Write 0])) 0 = [Start] /\
  thread_of (run four init (map Timestamp [0; 1; 2])) 3 = Propose /\ thread_of (run four init (map Timestamp [0; 1; 2])) 0 = AwaitAll.
Proof. vm_compute. repeat split; reflexivity. Qed.
Example C91_late : linked four /\ Forall (within four) late /\ Forall notdie late /\ (forall i, i < size four -> forall e t r, thread_of (run four init late) i <> Walk e t r) /\
  (forall u, In u (ups four 3) -> tag_le (tg 7) (completed (run four init late) u)).
Proof.
  split; [|split; [ops|split; [ops|split]]].
  - intros e u X. unfold four in *. cbn in *. destruct (Nat.eqb_spec e 3) as [->|ne]; [|contradiction]. destruct X as [<-|[<-|[<-|[]]]]; left; reflexivity.
  - intros i L e t r. cbn [size four] in L. destruct i as [|[|[|[|i]]]]; [| | | |lia]; vm_compute; discriminate.
  - intros u X. cbn in X. destruct X as [<-|[<-|[<-|[]]]]; vm_compute; repeat first [left; reflexivity | right; split; [reflexivity|discriminate]].
Qed.
