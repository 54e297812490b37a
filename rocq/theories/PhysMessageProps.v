(** Messages on physical connections between federates (C94). *)
From Verif Require Import Base Net NetSpec NetProofs PhysMessage PhysMessageSpec PhysMessageProofs.
Local Open Scope Z_scope.

(** C94 in full: whatever the operating systems and the network do, the messages that arrive at the inputs of a federate
    are the first ones of those that were sent with success, unchanged, each once and in the order of sending; a message
    for which the send reports a failure never arrives; and when nothing fails all messages arrive.
    Missing (refuted below): messages of 2 GB and more; federates that print at level LOG. *)
Theorem C94_arrives_partial : forall c qs, Forall (valid c) qs -> Forall (fun q => size q < 2147483648) qs -> c_log c = false ->
  exists answers s, send_all init_sender qs = Ok (answers, s) /\ prefix (accepted qs answers) qs /\
  forall rs stream, prefix stream (s_wire s) ->
  exists r e, listen c rs init_receiver stream = Ok (r, e) /\ prefix (r_got r) (map contents (accepted qs answers)) /\
    (e = Waiting \/ e = Closed).
Proof.
  intros c qs V B G.
  assert (B' : Forall small qs) by (eapply Forall_impl; [|exact B]; intros q Q; unfold small, LLONG_MAX; cbn beta in Q; lia).
  destruct (send_all_spec c qs init_sender V B' eq_refl) as (answers & s & part & E & W & D). exists answers, s. split; [exact E|].
  assert (P : prefix (accepted qs answers) qs).
  { destruct D as [(_ & -> & _)|(q & _ & more & D & _)]; [exists []; symmetry; apply app_nil_r|exists (q :: more); exact D]. }
  split; [exact P|]. intros rs stream (tail & T). rewrite W in T. cbn [s_wire init_sender app] in T.
  set (acc := accepted qs answers) in *.
  assert (X : exists ms rest, Forall (valid c) (acc ++ ms) /\ Forall (fun q => size q < 2147483648) (acc ++ ms) /\
    concat (map on_wire (acc ++ ms)) = stream ++ (tail ++ rest) /\
    (length stream < length (concat (map on_wire (acc ++ firstn 1 ms))))%nat \/ (ms = [] /\ Forall (valid c) (acc ++ ms) /\ Forall (fun q => size q < 2147483648) (acc ++ ms) /\
    concat (map on_wire (acc ++ ms)) = stream ++ (tail ++ rest))).
  { destruct D as [(-> & D & _)|(q & rest & more & D & Dw & Dr)].
    - exists [], []. right. rewrite app_nil_r in T. rewrite !app_nil_r. rewrite D in *. repeat split; auto.
    - exists [q], rest. left. assert (A : prefix (acc ++ [q]) qs) by (exists more; rewrite <- app_assoc; exact D).
      destruct A as (m & A). rewrite A in V, B. apply Forall_app in V, B. split; [apply V|]. split; [apply B|].
      cbn [firstn]. rewrite map_app, concat_app. cbn [map concat]. rewrite app_nil_r, Dw.
      split; [rewrite app_assoc, T, <- app_assoc; reflexivity|]. rewrite !app_assoc, app_length, <- app_length.
      rewrite T, app_length. destruct rest; [congruence|]. cbn [length]. rewrite app_length. cbn [length]. lia. }
  destruct X as (ms & rest & [(X1 & X2 & X3 & X4)|(-> & X1 & X2 & X3)]).
  - destruct (listen_prefix c rs _ _ _ init_receiver X1 X2 G X3) as (k & r & e & L & K1 & K2 & K3 & K4 & _). exists r, e. split; [exact L|]. split; [|exact K4].
    assert (K : (k <= length acc)%nat).
    { destruct (Nat.le_gt_cases k (length acc)) as [Y|Y]; [exact Y|exfalso].
      assert (Z1 : (length (concat (map on_wire (acc ++ firstn 1 ms))) <= length (concat (map on_wire (firstn k (acc ++ ms)))))%nat).
      { replace (acc ++ firstn 1 ms) with (firstn (S (length acc)) (acc ++ ms)).
        - rewrite <- !firstn_map. apply firstn_concat_length. lia.
        - rewrite firstn_app. rewrite firstn_all2 by lia. f_equal. f_equal. lia. }
      lia. }
    rewrite firstn_app in K1. replace (k - length acc)%nat with 0%nat in K1 by lia. cbn [firstn] in K1. rewrite app_nil_r in K1.
    cbn [r_got init_receiver app] in K1. rewrite K1. exists (map contents (skipn k acc)). rewrite <- map_app, firstn_skipn. reflexivity.
  - destruct (listen_prefix c rs _ _ _ init_receiver X1 X2 G X3) as (k & r & e & L & K1 & K2 & K3 & K4 & _). exists r, e. split; [exact L|]. split; [|exact K4].
    rewrite app_nil_r in K1. cbn [r_got init_receiver app] in K1. rewrite K1. exists (map contents (skipn k acc)). rewrite <- map_app, firstn_skipn. reflexivity.
Qed.
Print Assumptions C94_arrives_partial.

Theorem C94_all_arrive_partial : forall c qs rs, Forall (valid c) qs -> Forall (fun q => size q < 2147483648) qs -> c_log c = false ->
  Forall wr_good qs -> Forall2 round_good qs rs ->
  exists s r, send_all init_sender qs = Ok (repeat 0 (length qs), s) /\ s_warnings s = 0%nat /\ s_wire s = concat (map on_wire qs) /\
    listen c rs init_receiver (s_wire s) = Ok (r, Waiting) /\ r_got r = map contents qs /\ r_leaked r = [].
Proof.
  intros c qs rs V B G H F.
  assert (B' : Forall small qs) by (eapply Forall_impl; [|exact B]; intros q Q; unfold small, LLONG_MAX; cbn beta in Q; lia).
  destruct (send_all_complete c qs init_sender V B' eq_refl H) as (s & E & W & N). cbn [s_wire init_sender app] in W.
  exists s, (mkReceiver (map contents qs) []). split; [exact E|]. split; [exact N|]. split; [exact W|]. rewrite W. split; [|auto].
  exact (listen_complete c qs rs init_receiver V B G F).
Qed.
Print Assumptions C94_all_arrive_partial.

(** No memory is lost as long as the connection is open, and one buffer at most when it ends. *)
Theorem C94_memory_partial : forall c qs rs stream, Forall (valid c) qs -> Forall (fun q => size q < 2147483648) qs -> c_log c = false ->
  prefix stream (concat (map on_wire qs)) ->
  exists r e, listen c rs init_receiver stream = Ok (r, e) /\ (e = Waiting -> r_leaked r = []) /\ (length (r_leaked r) <= 1)%nat.
Proof.
  intros c qs rs stream V B G (tail & T).
  destruct (listen_prefix c rs qs stream tail init_receiver V B G T) as (k & r & e & L & _ & _ & _ & _ & K5 & K6).
  exists r, e. auto.
Qed.
Print Assumptions C94_memory_partial.

(** Only untagged messages can be sent this way: any other type is refused and nothing is sent. *)
Theorem C94_refused : forall s q, q_type q <> 17 -> send_message s q = Ok (Some (-1), s).
Proof.
  intros s q H. unfold send_message, MSG_TYPE_P2P_MESSAGE. replace (q_type q =? 17) with false by (symmetry; apply Z.eqb_neq; exact H). reflexivity.
Qed.
Print Assumptions C94_refused.

(** A message of 2 GB or more, up to 4 GB, is sent with success, read whole, and thrown away; its memory is lost
    (schedule.c:70: the length is an [int]). *)
Theorem C94_large_refuted : forall c q et eh eb, valid c q -> 2147483648 <= size q < 4294967296 -> c_log c = false ->
  wr_good q -> round_good q (et, eh, eb) ->
  exists s, send_all init_sender [q] = Ok ([0], s) /\
    listen c [(et, eh, eb)] init_receiver (s_wire s) = Ok (mkReceiver [] [q_body q], Waiting).
Proof.
  intros c q et eh eb V B G H (F1 & F2 & F3). cbn [fst snd] in *.
  destruct (send_all_complete c [q] init_sender) as (s & E & W & N); auto; [constructor; [unfold small, LLONG_MAX; lia|constructor]|].
  exists s. split; [exact E|]. rewrite W. cbn [s_wire init_sender app map concat].
  assert (M : size q mod two32 = size q) by (apply Z.mod_small; unfold size, two32 in *; lia).
  assert (L : Z.to_nat (size q mod two32) = length (q_body q)) by (rewrite M; unfold size; lia).
  rewrite (listen_step c et eh eb [] init_receiver q []); auto; [|rewrite L; exact F3].
  rewrite L, firstn_all, M, large_schedule by exact B. reflexivity.
Qed.
Print Assumptions C94_large_refuted.

(** The length in the header is cut to 32 bits (federate.c:2346): a longer message makes the receiver take its contents for
    messages.  Any message can be forged inside the contents of another. *)
Theorem C94_forged_refuted : forall c inner, valid c inner -> size inner < 2147483648 -> c_log c = false ->
  exists q, valid c q /\ q_port q = q_port inner /\
  forall et eh eb et2 eh2 eb2 et3 eh3 eb3, wr_good (mkRequest (q_type q) (q_port q) (q_fed q) (q_body q) eh eb) ->
    rd_good 1 et -> rd_good 8 et2 -> round_good inner (et3, eh2, eb2) -> rd_good 1 eh3 ->
  exists s, send_all init_sender [mkRequest (q_type q) (q_port q) (q_fed q) (q_body q) eh eb] = Ok ([0], s) /\
    listen c [(et, et2, []); (et3, eh2, eb2); (eh3, [], eb3)] init_receiver (s_wire s) =
      Ok (mkReceiver [(q_port inner, []); contents inner] [], BadType).
Proof.
  intros c inner V B G.
  set (pad := repeat 0 (Z.to_nat (4294967296 - Z.of_nat (length (on_wire inner))))).
  assert (Lw : Z.of_nat (length (on_wire inner)) = 9 + size inner) by (rewrite on_wire_length; unfold size; lia).
  set (body := on_wire inner ++ pad).
  assert (Lb : Z.of_nat (length body) = 4294967296) by (unfold body, pad; rewrite app_length, repeat_length; unfold size in *; lia).
  pose proof V as (Vt & Vp & Vp' & Vf & Vf' & Vb).
  assert (Bb : Forall is_byte body).
  { unfold body. apply Forall_app. split.
    - rewrite on_wire_split. apply Forall_app. split; [repeat constructor; unfold is_byte; lia|]. apply Forall_app. split; [|exact Vb].
      unfold head. rewrite !Forall_app. repeat split; apply little_endian_bytes.
    - unfold pad. apply Forall_forall. intros x Hx. apply repeat_spec in Hx. subst x. unfold is_byte. lia. }
  exists (mkRequest 17 (q_port inner) (q_fed inner) body [] []). split; [unfold valid; cbn [q_type q_port q_fed q_body]; intuition lia|]. split; [reflexivity|]. cbn [q_type q_port q_fed q_body].
  intros et eh eb et2 eh2 eb2 et3 eh3 eb3 H R1 R2 (R3 & R4 & R5) R6. cbn [fst snd] in *.
  set (q := mkRequest 17 (q_port inner) (q_fed inner) body eh eb) in *.
  assert (Vq : valid c q) by (unfold valid; cbn [q_type q_port q_fed q_body q]; intuition lia).
  assert (Sq : size q = 4294967296) by exact Lb.
  destruct (send_all_complete c [q] init_sender) as (s & E & W & N); auto; [constructor; [unfold small, LLONG_MAX; lia|constructor]|].
  exists s. split; [exact E|]. rewrite W. cbn [s_wire init_sender app map concat].
  assert (M : size q mod two32 = 0) by (rewrite Sq; reflexivity).
  rewrite (listen_step c et et2 [] _ init_receiver q []); auto; [|rewrite M; split; [constructor|cbn; lia]].
  rewrite M. change (Z.to_nat 0) with 0%nat. cbn [firstn skipn]. rewrite small_schedule by lia. rewrite app_nil_r.
  change (q_body q) with body. unfold body.
  assert (Mi : size inner mod two32 = size inner) by (apply Z.mod_small; unfold size, two32 in *; lia).
  assert (Li : Z.to_nat (size inner mod two32) = length (q_body inner)) by (rewrite Mi; unfold size; lia).
  rewrite (listen_step c et3 eh2 eb2 _ _ inner pad); auto; [|rewrite Li; exact R5].
  rewrite Li, firstn_all, skipn_all, Mi, small_schedule by (unfold size in *; lia). cbn [app r_got r_leaked init_receiver q_port q].
  assert (P : exists p, pad = [0] ++ p).
  { unfold pad. destruct (Z.to_nat (4294967296 - Z.of_nat (length (on_wire inner)))) as [|n] eqn:En; [unfold size in *; lia|]. exists (repeat 0 n). reflexivity. }
  destruct P as (p & ->). cbn [listen]. rewrite (read_socket_good 1 eh3 [0] p) by (try exact R6; try reflexivity; unfold LLONG_MAX; lia). reflexivity.
Qed.
Print Assumptions C94_forged_refuted.

(** A federate that prints at level LOG reads past the end of every message without a null byte (federate.c:514). *)
Theorem C94_log_refuted : forall c q et eh eb rs rest, valid c q -> size q < 2147483648 -> c_log c = true -> ~ In 0 (q_body q) ->
  round_good q (et, eh, eb) -> listen c ((et, eh, eb) :: rs) init_receiver (on_wire q ++ rest) = UB.
Proof.
  intros c q et eh eb rs rest V B G Z (F1 & F2 & F3). cbn [fst snd] in *.
  cbn [listen]. rewrite on_wire_split, <- app_assoc. rewrite (read_socket_good 1) by (try exact F1; try reflexivity; unfold LLONG_MAX; lia).
  cbn [nth]. change (17 =? MSG_TYPE_P2P_MESSAGE) with true. cbv iota. unfold handle_message. rewrite <- app_assoc.
  rewrite (read_socket_good 8) by (try exact F2; try (rewrite head_length; reflexivity); unfold LLONG_MAX; lia).
  rewrite (head_extract c q V). cbn [bind h_port h_fed h_length].
  destruct V as (_ & Hp & _ & Hf & _). rewrite Hf, Z.eqb_refl. cbn [negb]. replace (q_port q <? c_ports c) with true by (symmetry; apply Z.ltb_lt; lia). cbn [negb].
  assert (M : size q mod two32 = size q) by (apply Z.mod_small; unfold size, two32 in *; lia). rewrite M.
  rewrite (read_socket_good (size q) eb (q_body q)); [|unfold LLONG_MAX, size in *; lia|unfold size; rewrite Nat2Z.id; exact F3|unfold size; lia].
  rewrite G. unfold print_string. replace (existsb (Z.eqb 0) (q_body q)) with false; [reflexivity|].
  symmetry. apply Bool.not_true_iff_false. intros K. apply existsb_exists in K. destruct K as (x & K1 & K2). apply Z.eqb_eq in K2. subst x. auto.
Qed.
Print Assumptions C94_log_refuted.

(** When the connection ends within the contents of a message the buffer is lost (federate.c:510-512), whatever was received. *)
Theorem C94_leak_refuted : forall c q k et eh, valid c q -> size q < 2147483648 -> c_log c = false -> (k < length (q_body q))%nat ->
  rd_good 1 et -> rd_good 8 eh ->
  exists eb, listen c [(et, eh, eb)] init_receiver (firstn (9 + k) (on_wire q)) = Ok (mkReceiver [] [firstn k (q_body q)], Closed).
Proof.
  intros c q k et eh V B G K F1 F2. exists (repeat (RSome 1) (length (firstn k (q_body q))) ++ [REof]).
  assert (X : firstn (9 + k) (on_wire q) = [17] ++ head q ++ firstn k (q_body q)).
  { rewrite on_wire_split, !firstn_app, head_length. cbn [length]. rewrite !firstn_all2 by (cbn [length]; try rewrite head_length; lia).
    replace (9 + k - 1 - 8)%nat with k by lia. reflexivity. }
  rewrite X. cbn [listen]. rewrite (read_socket_good 1) by (try exact F1; try reflexivity; unfold LLONG_MAX; lia).
  cbn [nth]. change (17 =? MSG_TYPE_P2P_MESSAGE) with true. cbv iota. unfold handle_message.
  rewrite (read_socket_good 8) by (try exact F2; try (rewrite head_length; reflexivity); unfold LLONG_MAX; lia).
  rewrite (head_extract c q V). cbn [bind h_port h_fed h_length].
  destruct V as (_ & Hp & _ & Hf & _). rewrite Hf, Z.eqb_refl. cbn [negb]. replace (q_port q <? c_ports c) with true by (symmetry; apply Z.ltb_lt; lia). cbn [negb].
  assert (M : size q mod two32 = size q) by (apply Z.mod_small; unfold size, two32 in *; lia). rewrite M.
  unfold read_from_socket. cbn [negb]. replace (ssize_neg (size q)) with false by (symmetry; apply Z.ltb_ge; unfold LLONG_MAX; lia).
  rewrite read_until_eof by (rewrite firstn_length; unfold size; lia). reflexivity.
Qed.
Print Assumptions C94_leak_refuted.

(** Nine bytes end the program of the receiver: a message for another federate trips the assertion (line 501), one for a port that
    does not exist ends it with an error (line 189). *)
Theorem C94_crash_refuted : forall c port fed n et eh eb rs rest, 0 <= port < 65536 -> 0 <= fed < 65536 -> 0 <= n ->
  rd_good 1 et -> rd_good 8 eh -> fed <> c_id c \/ c_ports c <= port ->
  exists e, listen c ((et, eh, eb) :: rs) init_receiver
    (17 :: little_endian 2 port ++ little_endian 2 fed ++ little_endian 4 n ++ rest) = Ok (init_receiver, e) /\ (e = Aborted \/ e = Exited).
Proof.
  intros c port fed n et eh eb rs rest Hp Hf Hn F1 F2 D.
  assert (X : 17 :: little_endian 2 port ++ little_endian 2 fed ++ little_endian 4 n ++ rest =
    [17] ++ (little_endian 2 port ++ little_endian 2 fed ++ little_endian 4 n) ++ rest) by (rewrite <- !app_assoc; reflexivity).
  rewrite X. clear X. cbn [listen]. rewrite (read_socket_good 1) by (try exact F1; try reflexivity; unfold LLONG_MAX; lia).
  cbn [nth]. change (17 =? MSG_TYPE_P2P_MESSAGE) with true. cbv iota. unfold handle_message.
  rewrite (read_socket_good 8) by (try exact F2; try (rewrite !app_length, !little_endian_length; reflexivity); unfold LLONG_MAX; lia).
  unfold extract_header.
  pose proof (extract_uint16_at (c_big c) [] (little_endian 2 fed ++ little_endian 4 n) port) as E1.
  rewrite encode_uint16_le in E1. cbn [app length] in E1. rewrite E1 by exact Hp. cbn [bind].
  pose proof (extract_uint16_at (c_big c) (little_endian 2 port) (little_endian 4 n) fed) as E2.
  rewrite encode_uint16_le, little_endian_length in E2. change (0 + 2)%nat with 2%nat. rewrite E2 by exact Hf. cbn [bind].
  pose proof (extract_uint32_le (c_big c) (little_endian 2 port ++ little_endian 2 fed) [] n) as E3.
  rewrite app_length, !little_endian_length, app_nil_r, <- app_assoc in E3. change (2 + 2)%nat with 4%nat in E3. change (0 + 4)%nat with 4%nat.
  rewrite E3. cbn [bind h_fed h_port]. destruct (c_id c =? fed) eqn:Ei; cbn [negb]; [|exists Aborted; auto].
  apply Z.eqb_eq in Ei. destruct D as [D|D]; [congruence|]. replace (port <? c_ports c) with false by (symmetry; apply Z.ltb_ge; exact D).
  exists Exited. auto.
Qed.
Print Assumptions C94_crash_refuted.

(** ** Concrete cases *)
Definition cfg0 : config := mkConfig 3 2 false false.
Definition good_wr (n : nat) : list wr_event := WRetry :: repeat (WSome 1) n.
Definition good_rd (n : nat) : list rd_event := RRetry :: repeat (RSome 1) n.
Definition msg (p : Z) (b : list Z) : request := mkRequest 17 p 3 b (good_wr 9) (good_wr (length b)).
Definition qs0 : list request := [msg 0 [1; 2; 3]; msg 1 []; msg 1 [255]].
Definition rs0 : list round := map (fun q => (good_rd 1, good_rd 8, good_rd (length (q_body q)))) qs0.
Lemma bytes_ok b : forallb (fun x => (0 <=? x) && (x <? 256)) b = true -> Forall is_byte b.
Proof. intros H. apply Forall_forall. intros x Hx. rewrite forallb_forall in H. apply H in Hx. apply andb_prop in Hx. unfold is_byte. lia. Qed.
Lemma qs0_valid : Forall (valid cfg0) qs0.
Proof. repeat constructor; try (cbn; lia); apply bytes_ok; reflexivity. Qed.
Example C94_hypotheses : Forall (valid cfg0) qs0 /\ Forall (fun q => size q < 2147483648) qs0 /\ c_log cfg0 = false /\
  Forall wr_good qs0 /\ Forall2 round_good qs0 rs0.
Proof.
  split; [exact qs0_valid|]. split; [repeat constructor|]. split; [reflexivity|]. split.
  - repeat constructor; cbn; try lia; intuition discriminate.
  - repeat constructor; cbn; try lia; discriminate.
Qed.
(** The same, with a connection that breaks while the third message is sent: the first two arrive. *)
Example C94_broken : match send_all init_sender [msg 0 [1; 2; 3]; msg 1 []; mkRequest 17 1 3 [9; 9] (good_wr 9) [WSome 1; WErr]; msg 0 [7]] with
  | Ok (answers, s) => answers = [0; 0; -1; -1] /\ s_warnings s = 2%nat /\
      listen cfg0 [(good_rd 1, good_rd 8, good_rd 3); (good_rd 1, good_rd 8, []); (good_rd 1, good_rd 8, [RSome 5; REof])] init_receiver (s_wire s) =
      Ok (mkReceiver [(0, [1; 2; 3]); (1, [])] [[9]], Closed)
  | UB => False end.
Proof. vm_compute. auto. Qed.
Example C94_arrives_nontrivial : exists r, listen cfg0 rs0 init_receiver (concat (map on_wire qs0)) = Ok (r, Waiting) /\ r_got r = [(0, [1; 2; 3]); (1, []); (1, [255])].
Proof. eexists. split; [vm_compute; reflexivity|reflexivity]. Qed.
Example C94_log_nontrivial : listen (mkConfig 3 2 false true) rs0 init_receiver (concat (map on_wire qs0)) = UB.
Proof. reflexivity. Qed.
(** Messages of 2 GB exist. *)
Lemma filter_all {A} (f : A -> bool) x n : f x = true -> length (filter f (repeat x n)) = n.
Proof. intros Hx. induction n as [|n IH]; cbn [repeat filter]; [reflexivity|]. rewrite Hx. cbn [length]. rewrite IH. reflexivity. Qed.
Lemma no_err n : ~ In WErr (good_wr n).
Proof. intros [K|K]; [discriminate|]. apply repeat_spec in K. discriminate. Qed.
Lemma good_rd_good n : rd_good n (good_rd n).
Proof.
  split.
  - apply Forall_cons; [split; discriminate|]. apply Forall_forall. intros x Hx. apply repeat_spec in Hx. subst x. split; discriminate.
  - unfold good_rd. cbn [filter rd_delivers]. rewrite filter_all by reflexivity. lia.
Qed.
Lemma msg_good b : Forall is_byte b -> valid cfg0 (msg 0 b) /\ wr_good (msg 0 b) /\ round_good (msg 0 b) (good_rd 1, good_rd 8, good_rd (length b)).
Proof.
  intros Hb. split; [|split].
  - unfold valid. cbn [q_type q_port q_fed q_body msg cfg0 c_ports c_id]. intuition lia.
  - unfold wr_good. cbn [q_eh q_eb q_body msg]. repeat split; try apply no_err.
    + unfold good_wr. cbn [filter wr_delivers]. rewrite filter_all by reflexivity. lia.
    + unfold good_wr. cbn [filter wr_delivers]. rewrite filter_all by reflexivity. lia.
  - unfold round_good. cbn [fst snd q_body msg]. split; [apply good_rd_good|]. split; apply good_rd_good.
Qed.
Lemma long_list n : 0 <= n -> exists b, Z.of_nat (length b) = n /\ Forall is_byte b.
Proof.
  intros Hn. exists (repeat 7 (Z.to_nat n)). rewrite repeat_length. split; [lia|].
  apply Forall_forall. intros x Hx. apply repeat_spec in Hx. subst x. unfold is_byte. lia.
Qed.
Example C94_large_nontrivial : exists q, valid cfg0 q /\ 2147483648 <= size q < 4294967296 /\ wr_good q /\ exists x, round_good q x.
Proof.
  destruct (long_list 2147483648) as (b & L & Hb); [lia|]. destruct (msg_good b Hb) as (G1 & G2 & G3).
  exists (msg 0 b). split; [exact G1|]. split; [unfold size; cbn [q_body msg]; lia|]. split; [exact G2|]. eexists. exact G3.
Qed.
(** The hypotheses on the operating system in [C94_forged_refuted] can be met for every request. *)
Example C94_forged_nontrivial : forall q, exists eh eb, wr_good (mkRequest (q_type q) (q_port q) (q_fed q) (q_body q) eh eb).
Proof.
  intros q. exists (good_wr 9), (good_wr (length (q_body q))). unfold wr_good. cbn [q_eh q_eb q_body]. repeat split; try apply no_err;
  unfold good_wr; cbn [filter wr_delivers]; rewrite filter_all by reflexivity; lia.
Qed.
