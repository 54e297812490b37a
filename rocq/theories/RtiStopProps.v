(** C43: a federated stop agrees on a tag that no federate has passed. *)
From Verif Require Import Base Tag TagSpec TagProofs RtiStop RtiStopSpec RtiStopProofs.

(** The stop tag that is sent is at least every proposal received, before or after. *)
Theorem C43_bound n start stops s es i j t t' :
  0 <= tmicro start < UINT_MAX -> exec n start stops s es ->
  In (GrantSent j t) es -> In (Proposed i t') es -> tag_le t' t.
Proof.
  intros Hm X G P. pose proof (exec_J _ _ _ _ _ Hm X) as Inv. apply (j_grev _ _ _ _ Inv) in G. destruct G as (_ & ->). now apply (j_prop _ _ _ _ Inv) in P.
Qed.

(** It is sent at most once to each federate, it is the same for all of them, and if it is
    sent to one then it is sent to all that have not left. *)
Theorem C43_once n start stops s es :
  0 <= tmicro start < UINT_MAX -> exec n start stops s es ->
  (forall i, (grants_to i es <= 1)%nat) /\
  (forall i j t t', In (GrantSent i t) es -> In (GrantSent j t') es -> t = t') /\
  (forall i j t, In (GrantSent i t) es -> (j < n)%nat -> ~ In (Left j) es -> In (GrantSent j t) es).
Proof.
  intros Hm X. pose proof (exec_J _ _ _ _ _ Hm X) as Inv. split; [intros i; apply grants_le, (j_nodup _ _ _ _ Inv)|]. split.
  - intros i j t t' A B. apply (j_grev _ _ _ _ Inv) in A, B. destruct A, B. congruence.
  - intros i j t A Hj L. apply (j_grev _ _ _ _ Inv) in A. destruct A as (A & ->). apply (j_gone _ _ _ _ Inv); auto.
    destruct (conn (coord s) j) eqn:C; [reflexivity|]. exfalso. apply L. eapply exec_left; eassumption.
Qed.

(** A federate that is told the stop tag is at an earlier tag; from then on it stops at that
    tag, or at the timeout if that is earlier, and does not get beyond it. *)
Theorem C43_told n start stops s es i t c :
  0 <= tmicro start < UINT_MAX -> exec n start stops s es -> In (Granted i t c) es ->
  tag_lt c t /\ stop (feds s i) = lesser t (stops i) /\ tag_le (cur (feds s i)) t.
Proof.
  intros Hm X G. pose proof (exec_J _ _ _ _ _ Hm X) as Inv. destruct (exec_stopping _ _ _ _ _ Hm X i t c G) as (Hi & P). apply (j_got _ _ _ _ Inv) in G. destruct G as (_ & _ & G). split; [exact G|].
  destruct (j_fed _ _ _ _ Inv i Hi) as [_ K]. rewrite P in K. destruct K as (K1 & _ & K2). split; [exact K1|exact K2].
Qed.

(** When the stop tag is sent, and ever after, no federate that has not left is beyond it;
    and one that has reached it is stopping there. *)
Theorem C43_not_passed n start stops s es i j t :
  0 <= tmicro start < UINT_MAX -> exec n start stops s es -> In (GrantSent j t) es -> (i < n)%nat -> alive (feds s i) = true ->
  tag_le (cur (feds s i)) t /\ (tag_lt (cur (feds s i)) t \/ stop (feds s i) = lesser t (stops i)).
Proof.
  intros Hm X G Hi A. pose proof (exec_J _ _ _ _ _ Hm X) as Inv. apply (j_grev _ _ _ _ Inv) in G. destruct G as (G & ->).
  pose proof (j_all _ _ _ _ Inv G i Hi) as As. pose proof (j_link _ _ _ _ Inv i Hi) as L. pose proof (j_ans _ _ _ _ Inv i Hi) as N. destruct (j_fed _ _ _ _ Inv i Hi) as [_ K].
  assert (conn (coord s) i = true) as C. { unfold link in L. destruct (conn (coord s) i); [reflexivity|]. destruct L. congruence. }
  unfold ans in N. destruct (ph (feds s i)) as [| | | | |u|u]; try (destruct N as (_ & N); specialize (N As); congruence).
  - destruct N as [(_ & N)|(_ & _ & N)]; [congruence|]. destruct K as (_ & h & _ & K2 & K3). assert (tag_lt (cur (feds s i)) (max_stop (coord s))) as Lt by (eapply tag_lt_le_trans; [exact K2|]; eapply tag_le_trans; eassumption).
    split; [now apply tag_lt_le|now left].
  - destruct N as (_ & -> & _). destruct K as (K1 & _ & K). split; [exact K|now right].
Qed.

(** The stop tag is sent as soon as each federate that was asked has answered.  Missing:
    "... or left", see [C43_resign_refuted]. *)
Theorem C43_granted_partial n start stops s es i t :
  0 <= tmicro start < UINT_MAX -> exec n start stops s es -> (i < n)%nat -> In (Proposed i t) es ->
  (forall j t, In (AskSent j t) es -> exists t', In (Proposed j t') es) ->
  exists t', forall j, (j < n)%nat -> ~ In (Left j) es -> In (GrantSent j t') es.
Proof.
  intros Hm X Hi P A. pose proof (exec_J _ _ _ _ _ Hm X) as Inv.
  assert (granted (coord s) = true) as G.
  { destruct (proj2 (proj2 (j_prop _ _ _ _ Inv i t P))) as [Ip|G]; [|exact G]. apply (j_full _ _ _ _ Inv); [|lia]. rewrite (j_count _ _ _ _ Inv). apply all_number. intros j Hj.
    destruct (j_ask _ _ _ _ Inv Ip j Hj) as [K|(u & K)]; [exact K|]. destruct (A j u K) as (v & Pv). now apply (j_prop _ _ _ _ Inv) in Pv. }
  exists (max_stop (coord s)). intros j Hj L. apply (j_gone _ _ _ _ Inv); auto. destruct (conn (coord s) j) eqn:C; [reflexivity|]. exfalso. apply L. eapply exec_left; eassumption.
Qed.

(** Two federates: the first requests a stop while the second is ahead; both are told. *)
Definition start0 := mkTag 100 0.
Definition agree : list op :=
  [Tick 1 (mkTag 150 0); Call 0; Collect 0; SendReq 0; Handle 0; Tick 1 (mkTag 200 3); Listen 1; Answer 1; SendRep 1; Handle 1; Listen 0; Tick 0 (mkTag 200 0); Listen 1; Leave 0; Handle 0]%nat.
Example agree_runs : exists s es, exec 2 start0 (fun _ => FOREVER_TAG) s es /\
  In (Proposed 0 (mkTag 100 1)) es /\ In (Proposed 1 (mkTag 200 4)) es /\ In (GrantSent 0 (mkTag 200 4)) es /\ In (GrantSent 1 (mkTag 200 4)) es /\
  In (Granted 0 (mkTag 200 4) (mkTag 100 0)) es /\ In (Granted 1 (mkTag 200 4) (mkTag 200 3)) es /\ alive (feds s 1%nat) = true /\ cur (feds s 0%nat) = mkTag 200 0 /\
  (forall j t, In (AskSent j t) es -> exists t', In (Proposed j t') es) /\ ~ In (Left 1) es.
Proof.
  assert (option_map (fun x => (snd x, alive (feds (fst x) 1%nat), cur (feds (fst x) 0%nat))) (run 2 (init start0 (fun _ => FOREVER_TAG)) [] agree) =
    Some ([Proposed 0 (mkTag 100 1); AskSent 1 (mkTag 100 1); Proposed 1 (mkTag 200 4); GrantSent 0 (mkTag 200 4); GrantSent 1 (mkTag 200 4); Granted 0 (mkTag 200 4) (mkTag 100 0); Granted 1 (mkTag 200 4) (mkTag 200 3); Left 0], true, mkTag 200 0)) as O by now vm_compute.
  destruct (run 2 (init start0 (fun _ => FOREVER_TAG)) [] agree) as [[s es]|] eqn:R; [|discriminate]. cbn [option_map fst snd] in O. injection O as E1 E2 E3.
  exists s, es. split; [eapply run_exec; [apply exec_start| |exact R]; repeat constructor; cbn; unfold UINT_MAX; lia|].
  rewrite E1. clear R.
  do 6 (split; [cbn; auto 12|]). split; [exact E2|]. split; [exact E3|]. split.
  - intros j t H. cbn in H. repeat (destruct H as [H|H]; [try discriminate|]); [|destruct H]. injection H as <- <-. exists (mkTag 200 4). cbn. auto.
  - cbn. intros H. repeat (destruct H as [H|H]; [discriminate|]). exact H.
Qed.

(** A federate that leaves after it has been asked and before it has answered is not counted
    (rti_remote.c:1031-1096): although every federate still connected has answered, the stop
    tag is never sent, whatever happens. *)
Theorem C43_resign_refuted : exists s es, exec 2 start0 (fun _ => FOREVER_TAG) s es /\
  In (Proposed 0 (mkTag 100 1)) es /\ In (Left 1) es /\ alive (feds s 0%nat) = true /\
  forall s' es', later 2 s es s' es' -> forall j t, ~ In (GrantSent j t) es'.
Proof.
  set (os := [Call 0; Collect 0; SendReq 0; Handle 0; Leave 1; Handle 1]%nat).
  assert (option_map (fun x => let s := fst x in (snd x, alive (feds s 0%nat), (conn (coord s) 1%nat, ups (feds s 1%nat), alive (feds s 1%nat)), (asked (coord s) 0%nat, asked (coord s) 1%nat, count (coord s), in_progress (coord s), granted (coord s)))) (run 2 (init start0 (fun _ => FOREVER_TAG)) [] os) =
    Some ([Proposed 0 (mkTag 100 1); AskSent 1 (mkTag 100 1); Left 1], true, (false, [], false), (true, false, 1%nat, true, false))) as O by now vm_compute.
  destruct (run 2 (init start0 (fun _ => FOREVER_TAG)) [] os) as [[s es]|] eqn:R; [|discriminate]. cbn [option_map fst snd] in O. injection O as E1 E2 E3 E4 E5 E6 E7 E8 E9 E10.
  exists s, es. split; [eapply run_exec; [apply exec_start| |exact R]; repeat constructor; cbn; unfold UINT_MAX; lia|].
  rewrite E1. clear R. split; [cbn; auto|]. split; [cbn; auto|]. split; [exact E2|].
  intros s' es' L. apply (dead_later s _) in L; [apply (d_es _ _ L)|].
  split; auto. intros j t H. cbn in H. repeat (destruct H as [H|H]; [discriminate|]). exact H.
Qed.

(** A federate with several environments may answer with a tag that one of them has already
    passed: line 1470 of federate.c takes the current tag of the first environment. *)
Theorem C43_enclave_refuted : exists currents t c, In c currents /\ (forall c, In c currents -> 0 <= tmicro c < UINT_MAX) /\ tag_lt (offer_all currents t) c.
Proof.
  exists [mkTag 100 0; mkTag 300 2], (mkTag 200 0), (mkTag 300 2). split; [cbn; auto|]. split; [intros c [<-|[<-|[]]]; cbn; unfold UINT_MAX; lia|].
  vm_compute. auto.
Qed.

Print Assumptions C43_bound.
Print Assumptions C43_once.
Print Assumptions C43_told.
Print Assumptions C43_not_passed.
Print Assumptions C43_granted_partial.
Print Assumptions C43_resign_refuted.
Print Assumptions C43_enclave_refuted.
