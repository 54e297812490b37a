(** C85: a federate joins its federation. *)
From Verif Require Import Base CText Net NetSpec Admission Duet DuetSpec DuetProofs Join JoinSpec JoinProofs.
Local Open Scope Z_scope.

Definition ex_fed (m : clock_mode) (n : nat) : federate := mkFederate 1 [76; 70] false [(0, 1000)] [2] m n 5000.
Definition ex_rti : rti := set_connected (rti0 [76; 70] 3) 2 true.
Definition ex_coord (s : clock_status) (times : list (Z * Z)) : coordinator := mkCoordinator ex_rti true s times 1000000.
Lemma ex_talk m n s : in_uint16 (udp_port m) -> can_talk (ex_fed m n) (ex_coord s [(10, 20); (30, 45)]).
Proof.
  intros P. split.
  - reflexivity.
  - repeat (constructor; [lia|]). constructor.
  - cbn. lia.
  - cbn. lia.
  - reflexivity.
  - repeat (constructor; [cbn; unfold in_uint16, in_int64, LLONG_MIN, LLONG_MAX; cbn; lia|]). constructor.
  - repeat (constructor; [unfold in_uint16; lia|]). constructor.
  - cbn. lia.
  - cbn. lia.
  - exact P.
  - repeat (constructor; [cbn; unfold in_int64, LLONG_MIN, LLONG_MAX; cbn; lia|]). constructor.
Qed.

(** The property: a federate that finds its coordinator joins, whatever the order in
    which the two read and write; the coordinator then knows its neighbors, and both have
    made the same exchanges of clock synchronization.  Proved for sides that agree about
    clock synchronization and connections that do not fail; the coordinator enables the
    clock synchronization at runtime, at the right port, if both sides have it on.
    Missing: the two sides are started independently and nothing makes them agree, see
    [C85_clock_off_refuted], [C85_exchanges_refuted] and [C85_enabled_refuted]. *)
Theorem C85_join_partial f c : can_talk f c -> agree f c ->
  exists info, says f info /\ (forall p, both_on f c p -> n_enabled info = true /\ n_address info = Some p) /\
  always_ends (meet (fed_join f) (rti_join c))
    (mkDuet (Over false (Joined (match f_mode f with ModeOff => [] | _ => c_times c end))) (Over false (Admitted info)) (proposal f) []).
Proof.
  intros J A. exists (stored f c). split; [apply says_stored|]. split; [|apply join_ends; assumption].
  intros p (M & ON). unfold stored. unfold agree in A. rewrite M in A. rewrite ON, M. cbn [udp_port n_enabled n_address].
  destruct A as (_ & _ & R). destruct (Z.ltb_spec 0 p); [|lia]. split; reflexivity.
Qed.
Print Assumptions C85_join_partial.
Example C85_join_inst : can_talk (ex_fed (ModeOn 5000) 2) (ex_coord StatusOn [(10, 20); (30, 45)]) /\ agree (ex_fed (ModeOn 5000) 2) (ex_coord StatusOn [(10, 20); (30, 45)]) /\
  both_on (ex_fed (ModeOn 5000) 2) (ex_coord StatusOn [(10, 20); (30, 45)]) 5000.
Proof. split; [apply ex_talk; cbn; unfold in_uint16; lia|]. split; [cbn; repeat split; try discriminate; lia|]. split; reflexivity. Qed.

(** A federate that may not join learns why, whatever the schedule, and may try again. *)
Theorem C85_rejection f c w : Z.of_nat (f_id f) < 65536 -> Forall (fun x => 0 < x < 256) (f_federation f) -> refusal f c w ->
  exists fin, always_ends (meet (fed_join f) (rti_join c)) fin /\
    one fin = Over true (Again (Some (reject_code w))) /\ two fin = Over true (TurnedDown w).
Proof. intros L P R. apply rejected_ends; [lia|]. apply refusal_check; assumption. Qed.
Print Assumptions C85_rejection.
Example C85_rejection_inst :
  refusal (mkFederate 2 [76; 70] false [] [] ModeOff 0 0) (ex_coord StatusOff []) FEDERATE_ID_IN_USE /\
  refusal (mkFederate 3 [76; 70] false [] [] ModeOff 0 0) (ex_coord StatusOff []) FEDERATE_ID_OUT_OF_RANGE /\
  refusal (mkFederate 1 [76; 71] false [] [] ModeOff 0 0) (ex_coord StatusOff []) FEDERATION_ID_DOES_NOT_MATCH.
Proof.
  repeat split.
  - apply in_use; [exists []; reflexivity|cbn; lia|reflexivity].
  - apply out_of_range; [exists []; reflexivity|cbn; lia].
  - apply wrong_federation. intros (r & E). discriminate.
Qed.

(** A coordinator without a given port binds one of the sixteen ports, if one of them is
    free, and a federate without a given port tries that one again and again.  A given
    port is the one used, by the coordinator always, by the federate up to 32767. *)
Theorem C85_found free p :
  (server_port free 0 = Some p -> forall from, exists i, (from <= i < from + 16)%nat /\ federate_port 0 i = p) /\
  (forall port, 0 < port -> server_port free port = Some p -> p = port) /\
  (forall port i, 0 < port <= 32767 -> federate_port port i = port) /\
  (15045 <= p < 15061 -> (forall i, free i p = true) -> server_port free 0 <> None).
Proof.
  repeat split.
  - unfold server_port. cbn [Z.eqb negb]. intros B from. apply bind_range in B; [|unfold DEFAULT_PORT; lia].
    exists (from + Z.to_nat ((p - 15045 - Z.of_nat from) mod 16))%nat.
    assert (R : 0 <= (p - 15045 - Z.of_nat from) mod 16 < 16) by (apply Z.mod_pos_bound; lia). split; [lia|].
    unfold federate_port, first_port. cbn [Z.ltb Z.compare orb Z.eqb]. rewrite attempt_search by (unfold DEFAULT_PORT; lia).
    unfold DEFAULT_PORT. rewrite Z.sub_diag, Z.add_0_l, Nat2Z.inj_add, Z2Nat.id by lia. rewrite Z.add_mod_idemp_r by lia.
    replace (Z.of_nat from + (p - 15045 - Z.of_nat from)) with (p - 15045) by lia. rewrite Z.mod_small by lia. lia.
  - intros port L. unfold server_port. destruct (Z.eqb_spec port 0); [lia|]. apply bind_fixed.
  - intros port i L. unfold federate_port, first_port. destruct (Z.ltb_spec port 0); [lia|]. destruct (Z.ltb_spec 32767 port); [lia|]. destruct (Z.eqb_spec port 0); [lia|].
    apply attempt_fixed.
  - intros R F. unfold server_port. cbn [Z.eqb negb]. apply (bind_finds free p); [unfold DEFAULT_PORT; lia|exact F|].
    exists (Z.to_nat (p - 15045)). split; [unfold PORT_BIND_RETRY_LIMIT; lia|]. rewrite attempt_search by (unfold DEFAULT_PORT; lia).
    unfold DEFAULT_PORT. rewrite Z.sub_diag, Z.add_0_l, Z2Nat.id by lia. rewrite Z.mod_small by lia. lia.
Qed.
Print Assumptions C85_found.
Example C85_found_inst : server_port (fun _ p => 15050 <=? p) 0 = Some 15050 /\ federate_port 0 5 = 15050 /\ federate_port 0 37 = 15050.
Proof. repeat split; reflexivity. Qed.

(** Refuted: a federate compiled with initial clock synchronization joins a coordinator
    that was started without it, and waits for ever for the first exchange, while the
    coordinator counts it as admitted.  A UDP port of 65535, which the system may hand
    out, is taken for "off" and has the same effect. *)
Theorem C85_clock_off_refuted : exists f1 f2 c1 c2,
  can_talk f1 c1 /\ f_mode f1 = ModeInit /\ c_status c1 = StatusOff /\
  can_talk f2 c2 /\ f_mode f2 = ModeOn 65535 /\ c_status c2 = StatusOn /\ f_exchanges f2 = length (c_times c2) /\
  (exists fin i, always_ends (meet (fed_join f1) (rti_join c1)) fin /\ waits (one fin) /\ two fin = Over false (Admitted i) /\ to_one fin = []) /\
  (exists fin i, always_ends (meet (fed_join f2) (rti_join c2)) fin /\ waits (one fin) /\ two fin = Over false (Admitted i) /\ to_one fin = []).
Proof.
  exists (ex_fed ModeInit 2), (ex_fed (ModeOn 65535) 2), (ex_coord StatusOff [(10, 20); (30, 45)]), (ex_coord StatusOn [(10, 20); (30, 45)]).
  assert (J1 : can_talk (ex_fed ModeInit 2) (ex_coord StatusOff [(10, 20); (30, 45)])) by (apply ex_talk; cbn; unfold in_uint16; lia).
  assert (J2 : can_talk (ex_fed (ModeOn 65535) 2) (ex_coord StatusOn [(10, 20); (30, 45)])) by (apply ex_talk; cbn; unfold in_uint16; lia).
  split; [exact J1|]. split; [reflexivity|]. split; [reflexivity|]. split; [exact J2|]. repeat (split; [reflexivity|]). split.
  - assert (G : exists fin, always_ends (meet (fed_join (ex_fed ModeInit 2)) (rti_join (ex_coord StatusOff [(10, 20); (30, 45)]))) fin /\ waits (one fin) /\
       two fin = Over false (Admitted (stored (ex_fed ModeInit 2) (ex_coord StatusOff [(10, 20); (30, 45)]))) /\ to_one fin = []).
    { apply (fewer_ends _ _ _ [] 1); [|constructor]. apply (upto _ _ J1). apply (udp_read _ _ _ _ J1). apply goes_refl. }
    destruct G as (fin & G). exists fin. eexists. exact G.
  - assert (G : exists fin, always_ends (meet (fed_join (ex_fed (ModeOn 65535) 2)) (rti_join (ex_coord StatusOn [(10, 20); (30, 45)]))) fin /\ waits (one fin) /\
       two fin = Over false (Admitted (stored (ex_fed (ModeOn 65535) 2) (ex_coord StatusOn [(10, 20); (30, 45)]))) /\ to_one fin = []).
    { apply (fewer_ends _ _ _ [] 1); [|constructor]. apply (upto _ _ J2). apply (udp_read _ _ _ _ J2). apply goes_refl. }
    destruct G as (fin & G). exists fin. eexists. exact G.
Qed.
Print Assumptions C85_clock_off_refuted.

(** Refuted: the number of exchanges is an option of the coordinator and a compile-time
    constant of the federate.  With fewer at the coordinator the federate waits for
    ever.  With more it goes on while the coordinator takes its next message for an
    answer, rejects it and closes the connection of a federate that it marked as
    connected. *)
Theorem C85_exchanges_refuted : exists f1 f2 c,
  can_talk f1 c /\ can_talk f2 c /\ f_mode f1 = ModeInit /\ f_mode f2 = ModeInit /\ c_status c = StatusInit /\
  (length (c_times c) < f_exchanges f1)%nat /\ (f_exchanges f2 < length (c_times c))%nat /\
  (exists fin i, always_ends (meet (fed_join f1) (rti_join c)) fin /\ waits (one fin) /\ two fin = Over false (Admitted i) /\ to_one fin = []) /\
  (exists fin times, always_ends (meet (fed_join f2) (rti_join c)) fin /\ one fin = Over false (Joined times) /\ two fin = Over true (Stranded (f_id f2))).
Proof.
  exists (ex_fed ModeInit 3), (ex_fed ModeInit 1), (ex_coord StatusInit [(10, 20); (30, 45)]).
  assert (J1 : can_talk (ex_fed ModeInit 3) (ex_coord StatusInit [(10, 20); (30, 45)])) by (apply ex_talk; cbn; unfold in_uint16; lia).
  assert (J2 : can_talk (ex_fed ModeInit 1) (ex_coord StatusInit [(10, 20); (30, 45)])) by (apply ex_talk; cbn; unfold in_uint16; lia).
  split; [exact J1|]. split; [exact J2|]. repeat (split; [reflexivity|]). split; [cbn; lia|]. split; [cbn; lia|]. split.
  - assert (G : exists fin, always_ends (meet (fed_join (ex_fed ModeInit 3)) (rti_join (ex_coord StatusInit [(10, 20); (30, 45)]))) fin /\ waits (one fin) /\
       two fin = Over false (Admitted (stored (ex_fed ModeInit 3) (ex_coord StatusInit [(10, 20); (30, 45)]))) /\ to_one fin = []).
    { apply (fewer_ends _ _ _ [(10, 20); (30, 45)] 0); [|apply (J_times _ _ J1)]. apply (upto _ _ J1). apply (udp_read _ _ _ _ J1). apply goes_refl. }
    destruct G as (fin & G). exists fin. eexists. exact G.
  - assert (G : exists fin, always_ends (meet (fed_join (ex_fed ModeInit 1)) (rti_join (ex_coord StatusInit [(10, 20); (30, 45)]))) fin /\
       one fin = Over false (Joined [(10, 20)]) /\ two fin = Over true (Stranded (f_id (ex_fed ModeInit 1)))).
    { apply (more_ends _ _ (Over false (Admitted (stored (ex_fed ModeInit 1) (ex_coord StatusInit [(10, 20); (30, 45)])))) [(10, 20)] (30, 45) []).
      - apply (upto _ _ J2). apply (udp_read _ _ _ _ J2). apply goes_refl.
      - pose proof (J_times _ _ J2) as X. inversion X; subst. constructor; [assumption|constructor]. }
    destruct G as (fin & G). exists fin. eexists. exact G.
Qed.
Print Assumptions C85_exchanges_refuted.

(** Refuted: a coordinator with clock synchronization on enables it for federates that
    have it off, at port 65535, or only at the start, at no address at all. *)
Theorem C85_enabled_refuted : exists f1 f2 c fin1 fin2 i1 i2,
  can_talk f1 c /\ agree f1 c /\ f_mode f1 = ModeOff /\ can_talk f2 c /\ agree f2 c /\ f_mode f2 = ModeInit /\
  always_ends (meet (fed_join f1) (rti_join c)) fin1 /\ two fin1 = Over false (Admitted i1) /\ n_enabled i1 = true /\ n_address i1 = Some 65535 /\
  always_ends (meet (fed_join f2) (rti_join c)) fin2 /\ two fin2 = Over false (Admitted i2) /\ n_enabled i2 = true /\ n_address i2 = None.
Proof.
  assert (J1 : can_talk (ex_fed ModeOff 2) (ex_coord StatusOn [(10, 20); (30, 45)])) by (apply ex_talk; cbn; unfold in_uint16, UINT16_MAX; lia).
  assert (J2 : can_talk (ex_fed ModeInit 2) (ex_coord StatusOn [(10, 20); (30, 45)])) by (apply ex_talk; cbn; unfold in_uint16; lia).
  assert (A1 : agree (ex_fed ModeOff 2) (ex_coord StatusOn [(10, 20); (30, 45)])) by exact Logic.I.
  assert (A2 : agree (ex_fed ModeInit 2) (ex_coord StatusOn [(10, 20); (30, 45)])) by (split; [discriminate|reflexivity]).
  exists (ex_fed ModeOff 2), (ex_fed ModeInit 2), (ex_coord StatusOn [(10, 20); (30, 45)]). do 4 eexists.
  split; [exact J1|]. split; [exact A1|]. split; [reflexivity|]. split; [exact J2|]. split; [exact A2|]. split; [reflexivity|].
  split; [apply (join_ends _ _ J1 A1)|]. split; [reflexivity|]. split; [reflexivity|]. split; [reflexivity|].
  split; [apply (join_ends _ _ J2 A2)|]. split; [reflexivity|]. split; reflexivity.
Qed.
Print Assumptions C85_enabled_refuted.

(** Refuted: the counts of neighbors are signed and taken as they come.  A header whose
    counts are 1 and -4 passes all tests with a body of two bytes, of which ten are
    then read; one whose body is larger than the memory ends the coordinator. *)
Theorem C85_counts_refuted : exists c i (p q : proc unit) fin1 fin2,
  always_ends (meet p (rti_neighbors c i)) fin1 /\ two fin1 = Over true RtiUB /\
  always_ends (meet q (rti_neighbors c i)) fin2 /\ two fin2 = Over true RtiExits.
Proof.
  exists (ex_coord StatusOff []), 1%nat,
    (Send (MSG_TYPE_NEIGHBOR_STRUCTURE :: encode_int32 1 ++ encode_int32 (-4) ++ [0; 0]) (Over false tt)),
    (Send (MSG_TYPE_NEIGHBOR_STRUCTURE :: encode_int32 1000000 ++ encode_int32 0) (Over false tt)).
  exists (mkDuet (Over false tt) (Over true RtiUB) [] []), (mkDuet (Over false tt) (Over true RtiExits) [] []).
  split; [|split; [reflexivity|split; [|reflexivity]]].
  - apply goes_ends; [|apply stuck_over]. apply one_sends.
    apply (two_reads (MSG_TYPE_NEIGHBOR_STRUCTURE :: encode_int32 1 ++ encode_int32 (-4)) 9 _ _ _ [0; 0] []); [reflexivity|].
    match goal with |- goes (mkDuet ?p ?q ?u ?v) _ => let q' := eval hnf in q in change (mkDuet p q u v) with (mkDuet p q' u v) end.
    apply (two_reads [0; 0] _ _ _ _ [] []); [vm_compute; reflexivity|].
    match goal with |- goes (mkDuet ?p ?q ?u ?v) _ => let q' := eval hnf in q in change (mkDuet p q u v) with (mkDuet p q' u v) end. apply goes_refl.
  - apply goes_ends; [|apply stuck_over]. apply one_sends.
    apply (two_reads (MSG_TYPE_NEIGHBOR_STRUCTURE :: encode_int32 1000000 ++ encode_int32 0) 9 _ _ _ [] []); [reflexivity|].
    match goal with |- goes (mkDuet ?p ?q ?u ?v) _ => let q' := eval hnf in q in change (mkDuet p q u v) with (mkDuet p q' u v) end. apply goes_refl.
Qed.
Print Assumptions C85_counts_refuted.

(** Refuted: a federate that is told a port above 32767 never tries it. *)
Theorem C85_port_range_refuted : exists port, 0 < port < 65536 /\
  (forall free, free 0%nat port = true -> server_port free port = Some port) /\ (forall i, federate_port port i <> port).
Proof.
  exists 40000. split; [lia|]. split.
  - intros free F. unfold server_port. generalize (PORT_BIND_RETRY_LIMIT - 1)%nat. intros [|more]; cbn [Z.eqb negb bind_port]; rewrite F; reflexivity.
  - intros i. change (federate_port 40000 i) with (attempt_port DEFAULT_PORT true i).
    rewrite attempt_search by (unfold DEFAULT_PORT; lia). pose proof (Z.mod_pos_bound (DEFAULT_PORT - 15045 + Z.of_nat i) 16 ltac:(lia)). lia.
Qed.
Print Assumptions C85_port_range_refuted.

(** The property: the search ends with a coordinator that acknowledged the federate, or
    fails.  Proved if no coordinator turned it down. *)
Theorem C85_search_partial l b : (forall a, In a l -> a_connects a = true -> a_acknowledged a = true) -> search false l = GoesOn b -> b = true.
Proof.
  induction l as [|a l IH]; [discriminate|]. intros H. cbn [search].
  destruct (a_out_of_time a); [discriminate|]. destruct (a_connects a) eqn:C.
  - rewrite (H a (or_introl eq_refl) C). congruence.
  - apply IH. intros x I. apply H. right. exact I.
Qed.
Print Assumptions C85_search_partial.
Example C85_search_inst : search false [mkAttempt false false false; mkAttempt false true true] = GoesOn true.
Proof. reflexivity. Qed.
(** Refuted: turned down at its last attempt before the timeout, the federate takes the
    closed connection for the one to its coordinator. *)
Theorem C85_timeout_refuted : exists l, (forall a, In a l -> a_acknowledged a = false) /\ search false l = GoesOn false.
Proof. exists [mkAttempt false true false; mkAttempt true false false]. split; [|reflexivity]. intros a [<-|[<-|[]]]; reflexivity. Qed.
Print Assumptions C85_timeout_refuted.
(** Refuted: a connection that breaks while a federate describes its neighbors ends the
    coordinator. *)
Theorem C85_broken_refuted : exists c i (p : proc unit) fin,
  always_ends (meet p (rti_neighbors c i)) fin /\ one fin = Over true tt /\ two fin = Over true RtiExits.
Proof.
  exists (ex_coord StatusOff []), 1%nat, (Send [MSG_TYPE_NEIGHBOR_STRUCTURE; 0] (Over true tt)), (mkDuet (Over true tt) (Over true RtiExits) [] []).
  split; [|split; reflexivity]. apply goes_ends; [|apply stuck_over]. apply one_sends. unfold rti_neighbors. apply two_eof; [cbn; lia|]. apply goes_refl.
Qed.
Print Assumptions C85_broken_refuted.
