(** C86: the authentication of federates. *)
From Verif Require Import Base CText Net NetSpec Admission Duet DuetSpec DuetProofs Join JoinSpec JoinProofs JoinProps Auth AuthSpec AuthProofs.
Local Open Scope Z_scope.

(** A hash for the examples; the theorems hold for every hash. *)
Definition ex_hash : hash := fun k m => firstn 32 (k ++ m ++ repeat 0 32).
Lemma ex_hash32 : hash32 ex_hash.
Proof. intros k m. unfold ex_hash. rewrite firstn_length, !app_length, repeat_length. lia. Qed.
Definition ex_nf : list Z := [1; 2; 3; 4; 5; 6; 7; 8].
Definition ex_nr : list Z := [8; 7; 6; 5; 4; 3; 2; 1].

(** With the same federation id on both sides a federate joins as without
    authentication, whatever the schedule. *)
Theorem C86_authenticated h fed_nonce rti_nonce given f c : hash32 h -> length fed_nonce = 8%nat -> length rti_nonce = 8%nat -> can_talk f c -> agree f c ->
  exists info, says f info /\
  always_ends (meet (fed_join_auth h fed_nonce given f) (rti_join_auth h rti_nonce c))
    (mkDuet (Over false (Joined (match f_mode f with ModeOff => [] | _ => c_times c end))) (Over false (Admitted info)) (proposal f) []).
Proof. intros H LF LR J A. exists (stored f c). split; [apply says_stored|]. apply join_auth_ends; assumption. Qed.
Print Assumptions C86_authenticated.
Example C86_authenticated_inst : hash32 ex_hash /\ length ex_nf = 8%nat /\ length ex_nr = 8%nat /\
  can_talk (ex_fed ModeInit 2) (ex_coord StatusOn [(10, 20); (30, 45)]) /\ agree (ex_fed ModeInit 2) (ex_coord StatusOn [(10, 20); (30, 45)]).
Proof. split; [apply ex_hash32|]. split; [reflexivity|]. split; [reflexivity|]. split; [apply ex_talk; cbn; unfold in_uint16; lia|]. split; [discriminate|reflexivity]. Qed.

(** The property: only who knows the federation id is admitted.  Proved: whatever the
    other program does, and whatever the schedule, it is admitted only after it sent
    the hash, keyed with the federation id, of the fresh nonce of the coordinator.
    Missing: that this needs the key is a property of the hash; and the key does not
    stay secret, see [C86_secret_refuted]. *)
Theorem C86_admitted_partial h rti_nonce c {A} (p : proc A) l i : hash32 h ->
  two (run l (meet p (rti_join_auth h rti_nonce c))) = Over false (Admitted i) ->
  exists hello rest, length hello = 11%nat /\
    said_one l (meet p (rti_join_auth h rti_nonce c)) = hello ++ [102] ++ fed_tag h (federation_id (c_rti c)) rti_nonce ++ rest.
Proof.
  intros H E. destruct (run_two l (meet p (rti_join_auth h rti_nonce c))) as (x & T & EQ). rewrite E in T. cbn [to_two two meet app] in *. rewrite EQ.
  destruct (rti_inv _ _ _ _ _ _ _ H T) as (hello & rest & L & ->). exists hello, (rest ++ to_two (run l (meet p (rti_join_auth h rti_nonce c)))). split; [exact L|].
  rewrite <- !app_assoc. reflexivity.
Qed.
Print Assumptions C86_admitted_partial.
Example C86_admitted_inst : exists l i, two (run l (meet (fed_join_auth ex_hash ex_nf false (ex_fed ModeOff 0)) (rti_join_auth ex_hash ex_nr (ex_coord StatusOff [])))) = Over false (Admitted i).
Proof. exists (concat (repeat [true; false] 12)). eexists. vm_compute. reflexivity. Qed.

(** A federate sends nothing but its nonce, and possibly a rejection, to a program that
    does not send the hash of that nonce, keyed with the federation id. *)
Theorem C86_federate h fed_nonce given f {B} (q : proc B) l :
  (exists rti_nonce rest, length rti_nonce = 8%nat /\
     said_two l (meet (fed_join_auth h fed_nonce given f) q) = [101] ++ rti_nonce ++ rti_tag h (f_federation f) (f_id f) fed_nonce ++ rest) \/
  In (said_one l (meet (fed_join_auth h fed_nonce given f) q))
     [[]; [100] ++ encode_uint16 (Z.of_nat (f_id f)) ++ fed_nonce; ([100] ++ encode_uint16 (Z.of_nat (f_id f)) ++ fed_nonce) ++ [0; 6]].
Proof.
  destruct (run_one l (meet (fed_join_auth h fed_nonce given f) q)) as (x & T & EQ). cbn [to_one one meet app] in T, EQ.
  destruct (fed_inv _ _ _ _ _ _ _ _ T) as [(rn & rest & L & ->)|[E|[E|E]]].
  - left. exists rn, (rest ++ to_one (run l (meet (fed_join_auth h fed_nonce given f) q))). split; [exact L|]. cbn [app] in *. rewrite EQ. rewrite <- !app_assoc. reflexivity.
  - right. left. symmetry. exact E.
  - right. right. left. symmetry. exact E.
  - right. right. right. left. symmetry. exact E.
Qed.
Print Assumptions C86_federate.
Example C86_federate_inst : exists l q, said_one l (meet (fed_join_auth ex_hash ex_nf false (ex_fed ModeOff 0)) (q : proc unit)) = [100; 1; 0] ++ ex_nf ++ [0; 6].
Proof. exists (repeat false 2 ++ repeat true 4), (Send (101 :: repeat 0 40) (Over true tt)). reflexivity. Qed.

(** Refuted: the key stays secret.  It is the federation id, which every federate sends
    in the clear as soon as it is authenticated. *)
Theorem C86_secret_refuted h fed_nonce given f {B} (q : proc B) l times :
  one (run l (meet (fed_join_auth h fed_nonce given f) q)) = Over false (Joined times) ->
  contains (said_one l (meet (fed_join_auth h fed_nonce given f) q)) (firstn 255 (f_federation f)).
Proof.
  intros E. destruct (run_one l (meet (fed_join_auth h fed_nonce given f) q)) as (x & T & _). rewrite E in T. apply (fed_reveals _ _ _ _ _ _ _ T).
Qed.
Print Assumptions C86_secret_refuted.
Example C86_secret_inst : exists l times, one (run l (meet (fed_join_auth ex_hash ex_nf false (ex_fed ModeOff 0)) (rti_join_auth ex_hash ex_nr (ex_coord StatusOff [])))) = Over false (Joined times).
Proof. exists (concat (repeat [true; false] 12)). eexists. vm_compute. reflexivity. Qed.

(** Refuted: a federate that fails to authenticate is turned away.  One with another
    federation id sends a rejection of two bytes where the coordinator reads 33 and
    takes the closed connection for a fatal error: the coordinator exits. *)
Theorem C86_wrong_key_refuted h fed_nonce rti_nonce given f c : hash32 h -> length fed_nonce = 8%nat -> length rti_nonce = 8%nat ->
  rti_tag h (federation_id (c_rti c)) (f_id f) fed_nonce <> rti_tag h (f_federation f) (f_id f) fed_nonce ->
  exists fin, always_ends (meet (fed_join_auth h fed_nonce given f) (rti_join_auth h rti_nonce c)) fin /\
    one fin = Over true (if given then FedExits else Again None) /\ two fin = Over true RtiExits.
Proof.
  intros H LF LR NE. eexists. split; [|split].
  - apply goes_ends; [apply wrong_key_goes; assumption|apply stuck_over].
  - reflexivity.
  - reflexivity.
Qed.
Print Assumptions C86_wrong_key_refuted.
Example C86_wrong_key_inst : rti_tag ex_hash [76; 70] 1 ex_nf <> rti_tag ex_hash [76; 71] 1 ex_nf.
Proof. discriminate. Qed.

(** Refuted: a federate without authentication is turned away.  Its first message ends
    a coordinator with authentication if the federation id has seven characters or
    more; otherwise both wait for ever. *)
Theorem C86_plain_federate_refuted : exists f1 f2 c1 c2 h fin1 fin2,
  hash32 h /\ federation_id (c_rti c1) = f_federation f1 /\ federation_id (c_rti c2) = f_federation f2 /\
  always_ends (meet (fed_join f1) (rti_join_auth h ex_nr c1)) fin1 /\ two fin1 = Over true RtiExits /\
  always_ends (meet (fed_join f2) (rti_join_auth h ex_nr c2)) fin2 /\ waits (one fin2) /\ waits (two fin2).
Proof.
  exists (mkFederate 1 [97; 98; 99; 100; 101; 102; 103] false [] [] ModeOff 0 0), (mkFederate 1 [76; 70] false [] [] ModeOff 0 0),
    (mkCoordinator (rti0 [97; 98; 99; 100; 101; 102; 103] 3) false StatusOff [] 1000), (ex_coord StatusOff []), ex_hash.
  match goal with |- exists fin1 fin2, _ /\ _ /\ _ /\ always_ends ?s1 fin1 /\ _ /\ always_ends ?s2 fin2 /\ _ =>
    assert (G1 : exists fin, always_ends s1 fin /\ two fin = Over true RtiExits); [|assert (G2 : exists fin, always_ends s2 fin /\ waits (one fin) /\ waits (two fin))] end.
  - eexists. split.
    + unfold meet, fed_join, rti_join_auth, rti_auth. apply goes_ends.
      * apply one_sends. apply one_sends.
        match goal with |- goes (mkDuet _ _ ?u _) _ => replace u with (u ++ []) by apply app_nil_r end. apply two_reads; [reflexivity|].
        match goal with |- goes (mkDuet ?p ?q ?u ?v) _ => change (mkDuet p q u v) with (mkDuet p (Over true RtiExits) u v) end.
        apply (one_eof 1); [cbn; lia|]. apply goes_refl.
      * apply stuck_over.
    + reflexivity.
  - eexists. split.
    + unfold meet, fed_join, rti_join_auth, rti_auth. apply goes_ends.
      * apply one_sends. apply one_sends. apply goes_refl.
      * apply stuck_both; apply Nat.ltb_lt; reflexivity.
    + split; exact Logic.I.
  - destruct G1 as (fin1 & A1 & B1), G2 as (fin2 & A2 & B2 & C2). exists fin1, fin2. split; [exact ex_hash32|]. split; [reflexivity|]. split; [reflexivity|].
    split; [exact A1|]. split; [exact B1|]. split; [exact A2|]. split; assumption.
Qed.
Print Assumptions C86_plain_federate_refuted.

(** Refuted: a federate with authentication learns that the coordinator has none.  The
    coordinator sends two bytes and closes; the federate only reads 41 at once. *)
Theorem C86_plain_coordinator_refuted h fed_nonce f c : length fed_nonce = 8%nat ->
  exists fin, always_ends (meet (fed_join_auth h fed_nonce false f) (rti_join c)) fin /\
    two fin = Over true (TurnedDown RTI_NOT_EXECUTED_WITH_AUTH) /\ one fin = Over true (Again None).
Proof.
  intros L. destruct fed_nonce as [|x fed_nonce]; [discriminate|].
  exists (mkDuet (Over true (Again None)) (Over true (TurnedDown RTI_NOT_EXECUTED_WITH_AUTH)) fed_nonce []). split; [|split].
  - unfold meet, fed_join_auth, fed_auth, rti_join. apply goes_ends.
    + apply one_sends. apply (two_reads (MSG_TYPE_FED_NONCE :: encode_uint16 (Z.of_nat (f_id f)) ++ [x]) 4 _ _ _ fed_nonce []); [reflexivity|].
      change (goes (mkDuet (Recv (1 + NONCE_LENGTH + HMAC_LENGTH) (fed_fails false) (fun received =>
       if negb (nth 0 received 0 =? MSG_TYPE_RTI_RESPONSE) then fed_fails false
       else
         let tag := h (key (f_federation f)) (MSG_TYPE_RTI_RESPONSE :: encode_uint16 (Z.of_nat (f_id f)) ++ x :: fed_nonce) in
         if same_bytes (skipn (1 + NONCE_LENGTH) received) tag then
           Send (MSG_TYPE_FED_RESPONSE :: h (key (f_federation f)) (MSG_TYPE_FED_RESPONSE :: firstn NONCE_LENGTH (skipn 1 received))) (fed_join f)
         else Send [MSG_TYPE_REJECT; HMAC_DOES_NOT_MATCH] (fed_fails false)))
         (Send [MSG_TYPE_REJECT; 7] (Over true (TurnedDown RTI_NOT_EXECUTED_WITH_AUTH))) fed_nonce []) (mkDuet (Over true (Again None)) (Over true (TurnedDown RTI_NOT_EXECUTED_WITH_AUTH)) fed_nonce [])).
      apply two_sends. apply one_eof; [cbn; lia|]. apply goes_refl.
    + apply stuck_over.
  - reflexivity.
  - reflexivity.
Qed.
Print Assumptions C86_plain_coordinator_refuted.

(** Refuted: a federate joins under the number that it authenticated with.  The number
    in the authentication is not compared with that in the message that follows. *)
Theorem C86_number_refuted : exists f g c h fin i,
  hash32 h /\ f_id f <> f_id g /\ always_ends (meet (fed_auth h ex_nf false f (fed_join g)) (rti_join_auth h ex_nr c)) fin /\ two fin = Over false (Admitted i) /\ n_fed i = f_id g.
Proof.
  assert (J : can_talk (mkFederate 0 [76; 70] false [(0, 1000)] [2] ModeOff 0 5000) (ex_coord StatusOff [(10, 20); (30, 45)])).
  { pose proof (ex_talk ModeOff 0 StatusOff ltac:(cbn; unfold in_uint16, UINT16_MAX; lia)) as [A1 A2 A3 A4 A5 A6 A7 A8 A9 A10 A11]. split; try assumption; cbn; lia. }
  exists (ex_fed ModeOff 0), (mkFederate 0 [76; 70] false [(0, 1000)] [2] ModeOff 0 5000), (ex_coord StatusOff [(10, 20); (30, 45)]), ex_hash. do 2 eexists.
  split; [exact ex_hash32|]. split; [discriminate|]. split; [|split].
  - apply goes_ends; [|apply stuck_over]. apply auth_both; [exact ex_hash32|reflexivity|reflexivity|reflexivity|]. apply (join_goes _ _ J Logic.I).
  - reflexivity.
  - reflexivity.
Qed.
Print Assumptions C86_number_refuted.

(** A program that answers with another tag is told so and turned away, and the
    coordinator goes on. *)
Theorem C86_outsider h rti_nonce c hello tag : length hello = 10%nat -> length tag = 32%nat -> fed_tag h (federation_id (c_rti c)) rti_nonce <> tag ->
  exists fin, always_ends (meet (Send ([100] ++ hello) (Send ([102] ++ tag) (Over false tt))) (rti_join_auth h rti_nonce c)) fin /\
    two fin = Over true Dropped /\ to_one fin = ([101] ++ rti_nonce ++ h (firstn 255 (federation_id (c_rti c))) ([101] ++ hello)) ++ [0; 6].
Proof.
  intros LH LT NE. eexists. split; [|split].
  - apply goes_ends; [apply (outsider_goes h rti_nonce c (rti_join c) hello 102 tag LH LT NE)|apply stuck_over].
  - reflexivity.
  - reflexivity.
Qed.
Print Assumptions C86_outsider.
Example C86_outsider_inst : fed_tag ex_hash [76; 70] ex_nr <> repeat 0 32.
Proof. discriminate. Qed.

(** Refuted: every program that fails to authenticate is turned away.  One that answers
    with a message of any other type ends the coordinator. *)
Theorem C86_type_refuted h rti_nonce c hello type tag : length hello = 10%nat -> length tag = 32%nat -> fed_tag h (federation_id (c_rti c)) rti_nonce <> tag -> type <> 102 ->
  exists fin, always_ends (meet (Send ([100] ++ hello) (Send ([type] ++ tag) (Over false tt))) (rti_join_auth h rti_nonce c)) fin /\ two fin = Over true RtiExits.
Proof.
  intros LH LT NE T. pose proof (outsider_goes h rti_nonce c (rti_join c) hello type tag LH LT NE) as G. destruct (Z.eqb_spec type 102) as [e|_]; [contradiction|].
  eexists. split; [apply goes_ends; [exact G|apply stuck_over]|reflexivity].
Qed.
Print Assumptions C86_type_refuted.
