(** C44-C47: the network layer. *)
From Verif Require Import Base Tag TagSpec TagProofs Net NetSpec NetProofs.
From Coq Require Import Arith.
Open Scope Z_scope.

(** ** C44.  The bytes written are the little-endian ones, on every host (encoding does not look at memory). *)
Theorem C44_bytes : forall v,
  encode_int64 v = little_endian 8 v /\ encode_int32 v = little_endian 4 v /\ encode_uint32 v = little_endian 4 v /\ encode_uint16 v = little_endian 2 v.
Proof. intros v. rewrite encode_int64_le, encode_int32_le, encode_uint32_le, encode_uint16_le. auto. Qed.
Print Assumptions C44_bytes.

(** Whatever surrounds the value in the buffer and whatever the byte order of the reader, it is read back. *)
Theorem C44_int64 : forall big pre post v, in_int64 v -> extract_int64 big (pre ++ encode_int64 v ++ post) (length pre) = Ok v.
Proof. exact extract_int64_at. Qed.
Print Assumptions C44_int64.
Theorem C44_int32 : forall big pre post v, in_int32 v -> extract_int32 big (pre ++ encode_int32 v ++ post) (length pre) = Ok v.
Proof. exact extract_int32_at. Qed.
Print Assumptions C44_int32.
Theorem C44_uint32 : forall big pre post v, in_uint32 v -> extract_uint32 big (pre ++ encode_uint32 v ++ post) (length pre) = Ok v.
Proof. exact extract_uint32_at. Qed.
Print Assumptions C44_uint32.
Theorem C44_uint16 : forall big pre post v, in_uint16 v -> extract_uint16 big (pre ++ encode_uint16 v ++ post) (length pre) = Ok v.
Proof. exact extract_uint16_at. Qed.
Print Assumptions C44_uint16.

(** Tags, in the two forms in which they are sent (LTC and NET; grants and stop messages). *)
Theorem C44_tag : forall big type post g, tag_ok g ->
  extract_tag big (encode_send_tag type g ++ post) 1 = Ok g /\
  extract_tag big (encode_tag_message type g ++ post) 1 = Ok g /\
  length (encode_send_tag type g) = 13%nat /\ length (encode_tag_message type g) = 13%nat.
Proof.
  intros big type post g Hg. split; [apply (extract_tag_at big [byte_of type] post g Hg)|]. split; [|split; reflexivity].
  apply (extract_tag_message big [byte_of type] post g Hg).
Qed.
Print Assumptions C44_tag.

Theorem C44_timed_header : forall big type port fed n g post, in_uint16 port -> in_uint16 fed -> in_uint32 n -> tag_ok g ->
  extract_timed_header big (encode_timed_header type port fed n g ++ post) 1 = Ok (mkHeader port fed n, g).
Proof.
  intros big type port fed n g post Hp Hf Hn Hg. unfold encode_timed_header, in_uint16, in_uint32, UINT_MAX, two32 in *. rewrite !Z.mod_small by lia.
  apply (extract_timed_header_at big [byte_of type] post); assumption.
Qed.
Print Assumptions C44_timed_header.

(** Absence messages. *)
Theorem C44_port_absent : forall big type port fed g post, in_uint16 port -> in_uint16 fed -> tag_ok g ->
  extract_port_absent big (encode_port_absent type port fed g ++ post) 1 = Ok (port, fed, g) /\ length (encode_port_absent type port fed g) = 17%nat.
Proof.
  intros big type port fed g post Hp Hf Hg. split; [|reflexivity]. unfold encode_port_absent, in_uint16 in *. rewrite !Z.mod_small by lia.
  apply (extract_port_absent_at big [byte_of type] post); assumption.
Qed.
Print Assumptions C44_port_absent.

Example C44_ex : in_int64 (-2) /\ encode_int64 (-2) = [254; 255; 255; 255; 255; 255; 255; 255] /\
  extract_int64 true [7; 254; 255; 255; 255; 255; 255; 255; 255] 1 = Ok (-2) /\ extract_int64 false (7 :: encode_int64 LLONG_MIN) 1 = Ok LLONG_MIN /\
  encode_tag_message 12 (mkTag 258 4294967295) = [12; 2; 1; 0; 0; 0; 0; 0; 0; 255; 255; 255; 255] /\
  encode_timed_header 5 3 2 10 (mkTag 1 0) = [5; 3; 0; 2; 0; 10; 0; 0; 0; 1; 0; 0; 0; 0; 0; 0; 0; 0; 0; 0; 0].
Proof. split; [unfold in_int64, LLONG_MIN, LLONG_MAX; lia|]. vm_compute. auto 10. Qed.

(** A payload of 2^32 bytes or more is announced with its length cut to 32 bits, although all of it is sent. *)
Theorem C44_length_refuted : exists n g, tag_ok g /\ 0 <= n /\
  forall big type post, exists h, extract_timed_header big (encode_timed_header type 1 0 n g ++ post) 1 = Ok (h, g) /\ h_length h <> n.
Proof.
  exists (two32 + 5), (mkTag 0 0). split; [split; unfold in_int64, in_uint32, LLONG_MIN, LLONG_MAX, UINT_MAX; cbn; lia|]. split; [unfold two32; lia|].
  intros big type post. exists (mkHeader 1 0 5). split; [|cbn; unfold two32; lia].
  apply (C44_timed_header big type 1 0 5 (mkTag 0 0) post); unfold in_uint16, in_uint32, UINT_MAX; try lia. split; unfold in_int64, in_uint32, LLONG_MIN, LLONG_MAX, UINT_MAX; cbn; lia.
Qed.
Print Assumptions C44_length_refuted.

(** ** C45.  The coordinator runs on a little-endian host.  If there are as many proposals as federates, every
    reply, whenever sent, is decoded on every host as one and the same time: the largest proposal (or 0)
    plus the start delay.  Nothing overflows as long as the proposals leave room for the delay. *)
Theorem C45_start : forall l ts n s, proposes l ts -> length ts = n -> start_run false n start_init l = Ok s ->
  exists m, is_max 0 ts m /\ forall f r, In (f, r) (rs_replies s) ->
  (forall big, extract_int64 big r 0 = Ok (m + DELAY_START)) /\ forall t, In t ts -> t + DELAY_START <= m + DELAY_START.
Proof.
  intros l ts n s Hp Hn Hr. destruct (start_inv n l ts _ _ Hp Hr) as (_ & M). cbn in M. exists (rs_max s). split; [exact M|]. intros f r Hin. split.
  - intros big. destruct (start_replies n l ts _ _ Hp Hr) with (f := f) (r := r) as (E & _); [cbn; lia|intros ? ? []|exact Hin|].
    unfold start_reply, c_add64 in E. destruct (in_int64b _) eqn:B; [|discriminate]. cbn [bind] in E. injection E as <-. apply in_int64b_spec in B.
    pose proof (extract_int64_at big [] [] _ B) as K. rewrite app_nil_r in K. exact K.
  - intros t Ht. destruct M as (_ & _ & U). specialize (U t Ht). lia.
Qed.
Print Assumptions C45_start.
Theorem C45_defined : forall l ts n, proposes l ts -> (forall t, In t ts -> t <= LLONG_MAX - DELAY_START) -> exists s, start_run false n start_init l = Ok s.
Proof. intros l ts n Hp Ht. eapply start_no_ub; [exact Hp|cbn; lia|exact Ht]. Qed.
Print Assumptions C45_defined.
Example C45_ex :
  let l := [Propose 1 (encode_int64 500); Reply 1; Propose 0 (encode_int64 700); Reply 0; Reply 1] in
  proposes l [500; 700] /\ match start_run false 2 start_init l with Ok s => map (fun fr => (fst fr, extract_int64 true (snd fr) 0)) (rs_replies s) = [(1%nat, Ok 1000000700); (0%nat, Ok 1000000700)] | UB => False end.
Proof.
  cbv zeta. split; [|vm_compute; reflexivity]. repeat (constructor; try (unfold in_int64, LLONG_MIN, LLONG_MAX; lia)).
Qed.
(** On a big-endian host the coordinator swaps the start time before encoding it: no federate decodes it. *)
Theorem C45_big_endian_refuted : exists l ts s, proposes l ts /\ length ts = 1%nat /\ start_run true 1 start_init l = Ok s /\
  exists r, rs_replies s = [(0%nat, r)] /\ forall big, extract_int64 big r 0 = Ok (-4842325921136377856) /\ is_max 0 ts 700.
Proof.
  exists [Propose 0 (encode_int64 700); Reply 0], [700]. eexists. split; [repeat (constructor; try (unfold in_int64, LLONG_MIN, LLONG_MAX; lia))|]. split; [reflexivity|].
  split; [vm_compute; reflexivity|]. eexists. split; [reflexivity|]. intros big. split; [destruct big; vm_compute; reflexivity|]. split; [right; now left|]. split; [lia|]. intros t [<-|[]]; lia.
Qed.
Print Assumptions C45_big_endian_refuted.

(** ** C46.  Reading: success means that exactly the first [n] bytes of the peer's stream were stored, in order, and
    the stream continues after them; in every case at most [n] bytes are stored and none is lost. *)
Theorem C46_read : forall n evs stream r buf rest, 0 <= n <= LLONG_MAX -> read_from_socket true n evs stream = (r, buf, rest) ->
  stream = buf ++ rest /\ Z.of_nat (length buf) <= n /\ (r = IoOk -> Z.of_nat (length buf) = n) /\
  (r = IoErr -> In RErr evs) /\ (r = IoEof -> In REof evs).
Proof.
  intros n evs stream r buf rest Hn H. unfold read_from_socket, ssize_neg in H. cbn [negb] in H. replace (LLONG_MAX <? n) with false in H by (symmetry; apply Z.ltb_ge; lia).
  apply read_loop_gen in H. destruct H as (got & -> & -> & L & O & E1 & E2). cbn [app]. repeat split; auto; [lia|intros K; specialize (O K); lia].
Qed.
Print Assumptions C46_read.
(** However the transfer is split or interrupted, it completes if the bytes arrive and no other error occurs. *)
Theorem C46_read_completes : forall n evs stream, 0 <= n <= LLONG_MAX -> n <= Z.of_nat (length stream) ->
  n <= Z.of_nat (length (filter rd_delivers evs)) -> Forall (fun e => ~ rd_fails e) evs -> exists buf rest, read_from_socket true n evs stream = (IoOk, buf, rest).
Proof.
  intros n evs stream Hn Hs Hd Hf. unfold read_from_socket, ssize_neg. cbn [negb]. replace (LLONG_MAX <? n) with false by (symmetry; apply Z.ltb_ge; lia).
  pose proof (read_loop_completes evs stream (Z.to_nat n) []) as K. destruct (read_loop evs stream (Z.to_nat n) []) as [[r b] rest]. cbn in K. rewrite K by (assumption || lia). eauto.
Qed.
Print Assumptions C46_read_completes.
(** The closing variant reports failure and marks the socket closed unless the read succeeded. *)
Theorem C46_close : forall n evs stream ok open buf rest, 0 <= n <= LLONG_MAX -> read_close_on_error true n evs stream = (ok, open, buf, rest) ->
  open = ok /\ (ok = true -> Z.of_nat (length buf) = n /\ stream = buf ++ rest).
Proof.
  intros n evs stream ok open buf rest Hn H. unfold read_close_on_error in H. destruct (read_from_socket true n evs stream) as [[r b] rs] eqn:E. apply (C46_read n) in E; [|exact Hn]. destruct E as (A & _ & B & _).
  destruct r; injection H as <- <- <- <-; split; auto; discriminate.
Qed.
Print Assumptions C46_close.

(** Writing: success means that exactly the [n] bytes of the buffer were handed over, in order. *)
Theorem C46_write : forall n evs buffer r out, 0 <= n <= LLONG_MAX -> write_to_socket true n evs buffer = Ok (r, out) ->
  (exists rest, firstn (Z.to_nat n) buffer = out ++ rest) /\ (r = IoOk -> out = firstn (Z.to_nat n) buffer /\ Z.of_nat (length out) = n) /\ (r = IoErr -> In WErr evs).
Proof.
  intros n evs buffer r out Hn H. unfold write_to_socket, ssize_neg in H. cbn [negb] in H. replace (LLONG_MAX <? n) with false in H by (symmetry; apply Z.ltb_ge; lia).
  destruct (Z.of_nat (length buffer) <? n) eqn:C; [discriminate|]. injection H as H. apply write_loop_gen in H. destruct H as (sent & rest & E & -> & O & E1 & _). cbn [app].
  split; [exists rest; exact E|]. split; [|exact E1]. intros K. rewrite (O K), app_nil_r in E. split; [symmetry; exact E|]. rewrite <- E, firstn_length. lia.
Qed.
Print Assumptions C46_write.
Theorem C46_write_completes : forall n evs buffer, 0 <= n <= Z.of_nat (length buffer) -> n <= LLONG_MAX -> n <= Z.of_nat (length (filter wr_delivers evs)) -> ~ In WErr evs ->
  exists out, write_to_socket true n evs buffer = Ok (IoOk, out).
Proof.
  intros n evs buffer Hn Hl Hd Hf. unfold write_to_socket, ssize_neg. cbn [negb]. replace (LLONG_MAX <? n) with false by (symmetry; apply Z.ltb_ge; lia).
  replace (Z.of_nat (length buffer) <? n) with false by (symmetry; apply Z.ltb_ge; lia).
  pose proof (write_loop_completes evs (firstn (Z.to_nat n) buffer) []) as K. destruct (write_loop evs (firstn (Z.to_nat n) buffer) []) as [r o]. cbn in K. rewrite K; [eauto|rewrite firstn_length; lia|exact Hf].
Qed.
Print Assumptions C46_write_completes.
Example C46_ex : read_from_socket true 5 [RSome 2; RRetry; RSome 0; RSome 9] [1; 2; 3; 4; 5; 6] = (IoOk, [1; 2; 3; 4; 5], [6]) /\
  read_from_socket true 5 [RSome 2; RErr] [1; 2; 3] = (IoErr, [1; 2], [3]) /\
  write_to_socket true 3 [WSome 0; WSome 2; WRetry; WSome 5] [7; 8; 9; 10] = Ok (IoOk, [7; 8; 9]).
Proof. vm_compute. auto. Qed.
(** A length above SSIZE_MAX is reported as a success although nothing was read. *)
Theorem C46_huge_refuted : exists n evs stream, 0 <= n < two64 /\ read_from_socket true n evs stream = (IoOk, [], stream) /\ n <> 0.
Proof. exists (LLONG_MAX + 1), [], []. split; [unfold LLONG_MAX, two64; lia|]. split; [reflexivity|unfold LLONG_MAX; lia]. Qed.
Print Assumptions C46_huge_refuted.

(** ** C47.  A message of any length below 2^32: the header and the payload reach the destination byte for byte if it is
    connected and nothing is written otherwise; the sender's stream continues right after the message; the
    256-byte buffer is never overrun.  [big]: byte order of the coordinator. *)
Theorem C47_forward : forall big n_feds connected buf0 port fed g payload rest,
  in_uint16 port -> in_uint16 fed -> fed < n_feds -> tag_ok g -> Z.of_nat (length payload) < two32 -> length buf0 = 255%nat ->
  let message := encode_timed_header MSG_TYPE_TAGGED_MESSAGE port fed (Z.of_nat (length payload)) g ++ payload in
  forward_timed big n_feds connected (MSG_TYPE_TAGGED_MESSAGE :: buf0) (tl (message ++ rest))
  = Ok (Some (mkFwd rest (if connected fed then message else []) fed g)).
Proof.
  intros big n_feds connected buf0 port fed g payload rest Hp Hf Hn Hg Hl Hb message. subst message.
  rewrite <- (forward_ok big n_feds connected MSG_TYPE_TAGGED_MESSAGE port fed g payload rest buf0) by (assumption || (cbn [length]; rewrite Hb; reflexivity) || (unfold is_byte, MSG_TYPE_TAGGED_MESSAGE; lia)).
  f_equal. unfold encode_timed_header. unfold in_uint16, two32 in *. rewrite !Z.mod_small by lia. cbn [app tl]. rewrite <- !app_assoc. reflexivity.
Qed.
Print Assumptions C47_forward.
Example C47_ex : let payload := map (fun i => Z.of_nat i mod 256) (seq 3 600) in
  Z.of_nat (length payload) < two32 /\
  match forward_timed false 4 (fun _ => true) (5 :: repeat 0 255) (tl (encode_timed_header 5 2 3 600 (mkTag 9 1) ++ payload ++ [1; 2])) with
  | Ok (Some f) => length (fw_out f) = 621%nat /\ fw_rest f = [1; 2] | _ => False end.
Proof. vm_compute. auto. Qed.
(** The destination in the header is used as an index without a check. *)
Theorem C47_destination_refuted : exists n_feds stream, 0 < n_feds /\ forward_timed false n_feds (fun _ => true) (5 :: repeat 0 255) stream = UB.
Proof. exists 2, (tl (encode_timed_header 5 0 7 0 (mkTag 0 0))). split; [lia|]. vm_compute. reflexivity. Qed.
Print Assumptions C47_destination_refuted.
