(** C88: departures. *)
From Verif Require Import Base Tag TagSpec TagProofs RtiDelays Rti Departure DepartureSpec DepartureProofs.
Open Scope Z_scope.

(** Federates 0 and 1 send to 2, which sends to 3. *)
Definition dep_topo : topo :=
  mkTopo 4 (fun i => match i with 2%nat => [(0%nat, 10); (1%nat, NEVER)] | 3%nat => [(2%nat, 5)] | _ => [] end)
           (fun i => match i with 0%nat => [2%nat] | 1%nat => [2%nat] | 2%nat => [3%nat] | _ => [] end).
Definition fine (l : list dop) : list (dop * (nat -> bool)) := map (fun o => (o, fun _ => true)) l.

(** The property: a federate that leaves does not hold up the others.  Proved: in every
    history in which federates say that they leave, whoever all upstream federates have
    left has been granted all tags.  (With upstream federates that stay, progress is C73.)
    Missing: federates that leave without a word, see the refutations. *)
Theorem C88_released_partial tp start l s j : mirrored tp -> tag_le (mkTag start 0) FOREVER_TAG -> orderly l ->
  dep_run tp start init_rti l = Some s -> r_connected (s j) = true -> orphan tp s j -> In (MTag FOREVER_TAG) (r_sent (s j)).
Proof.
  intros M S O E C [U D]. destruct (rd_run tp start S M l init_rti s O (rd_init tp) E) as (c & H). destruct (H j) as (Cj & _ & R). apply R. split; [exact U|]. split; [congruence|].
  intros k d K. destruct (H k) as (Ck & _). rewrite <- Ck. apply (D k d K).
Qed.
Print Assumptions C88_released_partial.
Definition dep_run_ex : list dop := map DMsg [RNet 2 (mkTag 50 0); RNet 3 (mkTag 60 0); RNet 0 (mkTag 5 0); RNet 1 (mkTag 5 0); RResign 0; RNet 2 (mkTag 40 0); RResign 1; RResign 2].
Example C88_released_inst : mirrored dep_topo /\ orderly (fine dep_run_ex) /\
  match dep_run dep_topo 0 init_rti (fine dep_run_ex) with Some s => r_connected (s 3%nat) = true /\ r_connected (s 2%nat) = false /\ r_sent (s 3%nat) = [MTag FOREVER_TAG] | None => False end.
Proof.
  split; [|split].
  - intros k d e I. destruct e as [|[|[|[|e]]]]; cbn in I; intuition; match goal with K : (_, _) = (_, _) |- _ => injection K as <- <- end; left; reflexivity.
  - apply Forall_forall. intros x I. repeat (destruct I as [<-|I]; [split; [cbn; first [exact Logic.I|left; vm_compute; reflexivity]|reflexivity]|]). destruct I.
  - vm_compute. repeat split.
Qed.

Definition two_topo : topo := mkTopo 2 (fun i => match i with 1%nat => [(0%nat, 10)] | _ => [] end) (fun i => match i with 0%nat => [1%nat] | _ => [] end).
(** Refuted: a federate that dies without a message is taken for one that has left.  Its
    downstream federates are not looked at: 1 has asked for the tag 50, then 0 dies; 1 is
    all alone, but unless it says something itself it is never granted anything. *)
Theorem C88_crash_refuted : exists tp l s, mirrored tp /\ dep_run tp 0 init_rti (fine (l ++ [DClosed 0])) = Some s /\
  r_connected (s 1%nat) = true /\ orphan tp s 1 /\ r_next (s 1%nat) = mkTag 50 0 /\ r_sent (s 1%nat) = [] /\
  forall l' s', Forall (fun x => match fst x with DMsg o => sender o = 0%nat | DClosed i => i = 0%nat end) l' -> dep_run tp 0 s l' = Some s' -> r_sent (s' 1%nat) = [].
Proof.
  exists two_topo, (map DMsg [RNet 0 (mkTag 5 0); RNet 1 (mkTag 50 0)]).
  destruct (dep_run two_topo 0 init_rti (fine (map DMsg [RNet 0 (mkTag 5 0); RNet 1 (mkTag 50 0)] ++ [DClosed 0]))) as [s|] eqn:E; [|vm_compute in E; discriminate].
  assert (X : r_connected (s 0%nat) = false /\ r_connected (s 1%nat) = true /\ r_next (s 1%nat) = mkTag 50 0 /\ r_sent (s 1%nat) = []).
  { assert (Y : match dep_run two_topo 0 init_rti (fine (map DMsg [RNet 0 (mkTag 5 0); RNet 1 (mkTag 50 0)] ++ [DClosed 0])) with
      | Some s => r_connected (s 0%nat) = false /\ r_connected (s 1%nat) = true /\ r_next (s 1%nat) = mkTag 50 0 /\ r_sent (s 1%nat) = [] | None => False end) by (vm_compute; repeat split).
    rewrite E in Y. exact Y. }
  destruct X as (X0 & X1 & X2 & X3). exists s. split; [|split; [reflexivity|]].
  - intros k d e I. destruct e as [|[|e]]; cbn in I; intuition; match goal with K : (_, _) = (_, _) |- _ => injection K as <- <- end; left; reflexivity.
  - split; [exact X1|]. split; [split; [discriminate|]; intros k d [I|[]]; injection I as <- <-; exact X0|]. split; [exact X2|]. split; [exact X3|].
    intros l' s' A R. destruct (still_run two_topo 0 s l' s s' (conj X0 eq_refl) A R) as [_ Y]. congruence.
Qed.
Print Assumptions C88_crash_refuted.

(** Refuted: a federate that has died is not waited for.  The next event that it announced
    stays: as long as another upstream federate (1, which has nothing to do) is there, its
    downstream federate 2 is granted nothing after it, however often it asks.  Had 0
    resigned, it would be. *)
Definition dead_run (last : dop) : list dop := map DMsg [RNet 2 (mkTag 50 0); RNet 0 (mkTag 5 0); RNet 1 FOREVER_TAG] ++ [last] ++ map DMsg [RNet 2 (mkTag 40 0); RNet 2 (mkTag 60 0); RNet 1 FOREVER_TAG; RNet 2 (mkTag 16 0)].
Theorem C88_dead_refuted :
  match dep_run dep_topo 0 init_rti (fine (dead_run (DClosed 0))) with Some s => r_connected (s 1%nat) = true /\ r_next (s 1%nat) = FOREVER_TAG /\ r_connected (s 0%nat) = false /\ r_sent (s 2%nat) = [] | None => False end /\
  match dep_run dep_topo 0 init_rti (fine (dead_run (DMsg (RResign 0)))) with Some s => r_sent (s 2%nat) = [MTag (mkTag 50 0); MTag (mkTag 60 0)] | None => False end.
Proof. vm_compute. repeat split. Qed.
Print Assumptions C88_dead_refuted.
