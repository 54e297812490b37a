(** Proofs about messages on physical connections (C94). *)
From Verif Require Import Base Net NetSpec NetProofs PhysMessage PhysMessageSpec.
Local Open Scope Z_scope.

Definition head (q : request) : list Z :=
  little_endian 2 (q_port q) ++ little_endian 2 (q_fed q) ++ little_endian 4 (size q).
Lemma on_wire_split q : on_wire q = [17] ++ head q ++ q_body q.
Proof. unfold on_wire, head. rewrite <- !app_assoc. reflexivity. Qed.
Lemma head_length q : length (head q) = 8%nat.
Proof. unfold head. rewrite !app_length, !little_endian_length. reflexivity. Qed.
Lemma on_wire_length q : length (on_wire q) = (9 + length (q_body q))%nat.
Proof. rewrite on_wire_split, !app_length, head_length. reflexivity. Qed.
Lemma little_4_mod v : little_endian 4 (v mod two32) = little_endian 4 v.
Proof. rewrite <- !to_mem_le_spec. change two32 with (256 ^ Z.of_nat 4). apply to_mem_le_mod. Qed.
Lemma header_is c q : valid c q -> message_header (q_type q) (q_port q) (q_fed q) (size q) = [17] ++ head q.
Proof.
  intros (-> & Hp & Hp' & Hf & Hf' & _). unfold message_header, head. rewrite (Z.mod_small (q_port q)), (Z.mod_small (q_fed q)) by lia.
  rewrite !encode_uint16_le, encode_uint32_le, little_4_mod. reflexivity.
Qed.

(** ** The sender *)
Lemma write_loop_rest evs : forall todo out r o, write_loop evs todo out = (r, o) ->
  exists sent rest, todo = sent ++ rest /\ o = out ++ sent /\ (r = IoOk <-> rest = []).
Proof.
  induction evs as [|e evs IH]; intros todo out r o H; destruct todo as [|x todo]; cbn [write_loop] in H.
  - injection H as <- <-; exists [], []; rewrite (app_nil_r out); repeat split; auto.
  - injection H as <- <-. exists [], (x :: todo). rewrite (app_nil_r out). repeat split; discriminate.
  - injection H as <- <-; exists [], []; rewrite (app_nil_r out); repeat split; auto.
  - destruct e as [n| |].
    + apply IH in H. destruct H as (sent & rest & E & -> & O). set (k := Nat.min n (length (x :: todo))) in *.
      exists (firstn k (x :: todo) ++ sent), rest. rewrite <- app_assoc, <- E, firstn_skipn, app_assoc. repeat split; tauto.
    + apply IH in H. destruct H as (sent & rest & E & -> & O). exists sent, rest. repeat split; tauto.
    + injection H as <- <-. exists [], (x :: todo). rewrite (app_nil_r out). repeat split; discriminate.
Qed.
Lemma write_close_spec s evs bytes : Z.of_nat (length bytes) <= LLONG_MAX ->
  exists a s' sent rest, write_close s evs bytes = Ok (a, s') /\ bytes = sent ++ rest /\ s_wire s' = s_wire s ++ sent /\
  s_warnings s' = s_warnings s /\
  (a = Some true -> s_open s = true /\ s_open s' = true /\ rest = []) /\ (s_open s = true -> a <> Some true -> rest <> []) /\
  (a = Some false -> s_open s' = false) /\ (s_open s = false -> a = Some false /\ sent = []).
Proof.
  intros L. unfold write_close, write_to_socket. destruct (s_open s) eqn:Eo; cbn [negb].
  - replace (ssize_neg (Z.of_nat (length bytes))) with false by (symmetry; apply Z.ltb_ge; exact L).
    rewrite Z.ltb_irrefl, Nat2Z.id, firstn_all. cbn [bind].
    destruct (write_loop evs bytes []) as [r o] eqn:E. apply write_loop_rest in E. destruct E as (sent & rest & E & -> & O).
    destruct r; (eexists _, _, sent, rest; split; [reflexivity|]); cbn [s_open s_wire s_warnings app];
      (repeat split; auto; try discriminate); try (apply O; reflexivity); try (intros _ N; congruence);
      try (intros _ _ K; apply O in K; discriminate).
  - cbn [bind]. eexists _, _, [], bytes. split; [reflexivity|]. cbn [s_open s_wire s_warnings app]. repeat split; auto; discriminate.
Qed.

Definition small (q : request) : Prop := size q <= LLONG_MAX.
Lemma send_message_spec c s q : valid c q -> small q ->
  exists a s' sent rest, send_message s q = Ok (a, s') /\ on_wire q = sent ++ rest /\ s_wire s' = s_wire s ++ sent /\
  (a = Some 0 -> s_open s = true /\ s_open s' = true /\ rest = [] /\ s_warnings s' = s_warnings s) /\ (a <> Some 0 -> rest <> []) /\
  (forall x, a = Some x -> x <> 0 -> x = -1 /\ s_open s' = false /\ s_warnings s' = S (s_warnings s)) /\
  (s_open s = false -> a = Some (-1) /\ sent = []).
Proof.
  intros V B. unfold send_message. pose proof (header_is c q V) as Hh. unfold size in Hh. rewrite Hh. destruct V as (-> & _).
  cbn [negb]. change (17 =? MSG_TYPE_P2P_MESSAGE) with true. cbn [negb].
  destruct (write_close_spec s (q_eh q) ([17] ++ head q)) as (a & s1 & sent & rest & E & Es & W & N & T & F & C & K).
  { cbn [app length]. rewrite head_length. unfold LLONG_MAX. cbn. lia. }
  rewrite E. cbn [bind].
  assert (X : on_wire q = sent ++ (rest ++ q_body q)) by (rewrite on_wire_split, app_assoc, Es, <- app_assoc; reflexivity).
  destruct a as [[|]|].
  - destruct (T eq_refl) as (T1 & T2 & ->). rewrite app_nil_r in Es.
    destruct (write_close_spec s1 (q_eb q) (q_body q) B) as (a & s2 & sent2 & rest2 & E2 & Es2 & W2 & N2 & T' & F' & C' & K').
    rewrite E2. cbn [bind].
    assert (X2 : on_wire q = (sent ++ sent2) ++ rest2) by (rewrite X, Es2; cbn [app]; rewrite app_assoc; reflexivity).
    assert (W3 : s_wire s2 = s_wire s ++ (sent ++ sent2)) by (rewrite W2, W, app_assoc; reflexivity).
    destruct a as [[|]|]; (eexists _, _, _, rest2; split; [reflexivity|]; split; [exact X2|]; split; [exact W3|]); cbn [s_open s_wire s_warnings].
    + destruct (T' eq_refl) as (_ & T2' & ->). repeat split; auto; try congruence; try (now elim H); intros; congruence.
    + repeat split; try discriminate; try (intros _; apply F'; [exact T2|discriminate]); intros; try congruence. exact (C' eq_refl).
    + repeat split; try discriminate; try (intros _; apply F'; [exact T2|discriminate]); intros; try congruence.
  - eexists _, _, sent, (rest ++ q_body q); split; [reflexivity|]; split; [exact X|]; split; [exact W|]. cbn [s_open s_wire s_warnings].
    assert (R : rest ++ q_body q <> []).
    { destruct (s_open s) eqn:Eo.
      - intros Y. apply app_eq_nil in Y. destruct Y as (Y & _). revert Y. apply F; [reflexivity|discriminate].
      - destruct (K eq_refl) as (_ & ->). cbn [app] in Es. rewrite <- Es. discriminate. }
    repeat split; try discriminate; try (intros; exact R); intros; try congruence; try (apply C; reflexivity); try (apply (K H)).
  - eexists _, _, sent, (rest ++ q_body q); split; [reflexivity|]; split; [exact X|]; split; [exact W|]. cbn [s_open s_wire s_warnings].
    assert (O : s_open s = true). { destruct (s_open s); [reflexivity|]. destruct (K eq_refl) as (Q & _). discriminate. }
    assert (R : rest ++ q_body q <> []).
    { intros Y. apply app_eq_nil in Y. destruct Y as (Y & _). revert Y. apply F; [exact O|discriminate]. }
    repeat split; try discriminate; try (intros; exact R); intros; congruence.
Qed.

Lemma send_all_closed c : forall qs s, Forall (valid c) qs -> Forall small qs -> s_open s = false ->
  exists s', send_all s qs = Ok (repeat (-1) (length qs), s') /\ s_wire s' = s_wire s /\ s_open s' = false.
Proof.
  induction qs as [|q qs IH]; intros s V B O; cbn [send_all]; [exists s; auto|].
  inversion_clear V as [|? ? V1 V2]. inversion_clear B as [|? ? B1 B2].
  destruct (send_message_spec c s q V1 B1) as (a & s1 & sent & rest & E & _ & W & _ & _ & C & K). rewrite E. cbn [bind].
  destruct (K O) as (-> & ->). destruct (C (-1) eq_refl) as (_ & O1 & _); [discriminate|].
  destruct (IH s1 V2 B2 O1) as (s2 & E2 & W2 & O2). rewrite E2. cbn [bind fst snd]. exists s2.
  rewrite W2, W, app_nil_r. auto.
Qed.
Lemma accepted_refused : forall qs n, accepted qs (repeat (-1) n) = [].
Proof. induction qs as [|q qs IH]; intros [|n]; cbn; auto. Qed.

(** The wire carries the accepted requests, which are a beginning of all requests, and a proper part of one more at most. *)
Lemma send_all_spec c : forall qs s, Forall (valid c) qs -> Forall small qs -> s_open s = true ->
  exists answers s' part, send_all s qs = Ok (answers, s') /\
  s_wire s' = s_wire s ++ concat (map on_wire (accepted qs answers)) ++ part /\
  ((part = [] /\ accepted qs answers = qs /\ answers = repeat 0 (length qs)) \/
   exists q rest more, qs = accepted qs answers ++ q :: more /\ on_wire q = part ++ rest /\ rest <> []).
Proof.
  induction qs as [|q qs IH]; intros s V B O; cbn [send_all].
  { exists [], s, []. cbn. rewrite app_nil_r. split; [reflexivity|]. split; [reflexivity|]. left. auto. }
  inversion_clear V as [|? ? V1 V2]. inversion_clear B as [|? ? B1 B2].
  destruct (send_message_spec c s q V1 B1) as (a & s1 & sent & rest & E & X & W & T & F & C & _). rewrite E. cbn [bind].
  destruct a as [x|].
  - destruct (Z.eq_dec x 0) as [->|N].
    + destruct (T eq_refl) as (_ & O1 & -> & _). rewrite app_nil_r in X. subst sent.
      destruct (IH s1 V2 B2 O1) as (answers & s2 & part & E2 & W2 & D). rewrite E2. cbn [bind fst snd].
      exists (0 :: answers), s2, part. split; [reflexivity|]. cbn [accepted]. rewrite Z.eqb_refl. cbn [map concat].
      split; [rewrite W2, W, <- !app_assoc; reflexivity|]. destruct D as [(-> & D1 & D2)|(q' & rest' & more & D1 & D2 & D3)].
      * left. rewrite D1. cbn [length repeat]. rewrite <- D2. auto.
      * right. exists q', rest', more. cbn [app]. rewrite <- D1. auto.
    + destruct (C x eq_refl N) as (-> & O1 & _). destruct (send_all_closed c qs s1 V2 B2 O1) as (s2 & E2 & W2 & _).
      rewrite E2. cbn [bind fst snd]. eexists _, s2, sent. split; [reflexivity|]. cbn [accepted Z.eqb]. rewrite accepted_refused. cbn [map concat app].
      split; [rewrite W2, W; reflexivity|]. right. exists q, rest, qs. split; [reflexivity|]. split; [exact X|]. apply F. congruence.
  - exists [], s1, sent. split; [reflexivity|]. cbn [accepted map concat app]. split; [exact W|].
    right. exists q, rest, qs. split; [reflexivity|]. split; [exact X|]. apply F. discriminate.
Qed.
Lemma send_all_complete c : forall qs s, Forall (valid c) qs -> Forall small qs -> s_open s = true -> Forall wr_good qs ->
  exists s', send_all s qs = Ok (repeat 0 (length qs), s') /\ s_wire s' = s_wire s ++ concat (map on_wire qs) /\ s_warnings s' = s_warnings s.
Proof.
  induction qs as [|q qs IH]; intros s V B O G; cbn [send_all].
  { exists s. cbn. rewrite app_nil_r. auto. }
  inversion_clear V as [|? ? V1 V2]. inversion_clear B as [|? ? B1 B2]. inversion_clear G as [|? ? G1 G2].
  destruct (send_message_spec c s q V1 B1) as (a & s1 & sent & rest & E & X & W & T & F & C & _).
  assert (A : a = Some 0).
  { revert E. unfold send_message. pose proof (header_is c q V1) as Hh. unfold size in Hh. rewrite Hh. destruct V1 as (-> & _).
    change (17 =? MSG_TYPE_P2P_MESSAGE) with true. cbn [negb]. destruct G1 as (g1 & g2 & g3 & g4).
    assert (Y : forall st evs bytes, s_open st = true -> Z.of_nat (length bytes) <= LLONG_MAX -> ~ In WErr evs ->
      (length bytes <= length (filter wr_delivers evs))%nat -> exists st', write_close st evs bytes = Ok (Some true, st') /\ s_open st' = true).
    { intros st evs bytes o l g h. unfold write_close, write_to_socket. rewrite o. cbn [negb].
      replace (ssize_neg (Z.of_nat (length bytes))) with false by (symmetry; apply Z.ltb_ge; exact l).
      rewrite Z.ltb_irrefl, Nat2Z.id, firstn_all. cbn [bind]. pose proof (write_loop_completes evs bytes [] h g) as Q.
      destruct (write_loop evs bytes []) as [r u]. cbn [fst] in Q. subst r. eexists. split; [reflexivity|reflexivity]. }
    destruct (Y s (q_eh q) ([17] ++ head q) O) as (st & -> & o); auto.
    { cbn [app length]. rewrite head_length. unfold LLONG_MAX. cbn. lia. }
    cbn [bind]. destruct (Y st (q_eb q) (q_body q) o) as (st' & -> & _); auto. cbn [bind]. intros K. injection K as <- _. reflexivity. }
  subst a. rewrite E. cbn [bind]. destruct (T eq_refl) as (_ & O1 & -> & N1). rewrite app_nil_r in X. subst sent.
  destruct (IH s1 V2 B2 O1 G2) as (s2 & E2 & W2 & N2). rewrite E2. cbn [bind fst snd length repeat]. exists s2. split; [reflexivity|].
  cbn [map concat]. split; [rewrite W2, W, <- !app_assoc; reflexivity|congruence].
Qed.

(** ** The receiver *)
Lemma app_same_length {A} (a b x y : list A) : a ++ x = b ++ y -> length a = length b -> a = b /\ x = y.
Proof.
  revert b; induction a as [|h a IH]; intros [|k b] E L; try discriminate L; [auto|].
  cbn [app] in E. injection E as -> E. destruct (IH b E) as (-> & ->); [now injection L|auto].
Qed.
Lemma read_socket n evs stream : 0 <= n <= LLONG_MAX -> exists r got rest, read_from_socket true n evs stream = (r, got, rest) /\
  stream = got ++ rest /\ (r = IoOk -> length got = Z.to_nat n).
Proof.
  intros Hn. unfold read_from_socket. cbn [negb]. replace (ssize_neg n) with false by (symmetry; apply Z.ltb_ge; lia).
  destruct (read_loop evs stream (Z.to_nat n) []) as [[r b] rest] eqn:E. apply read_loop_gen in E. destruct E as (got & -> & E & _ & O & _).
  exists r, got, rest. auto.
Qed.
Lemma read_socket_good n evs got rest : 0 <= n <= LLONG_MAX -> rd_good (Z.to_nat n) evs -> length got = Z.to_nat n ->
  read_from_socket true n evs (got ++ rest) = (IoOk, got, rest).
Proof.
  intros Hn (G1 & G2) L. destruct (read_socket n evs (got ++ rest) Hn) as (r & got' & rest' & E & X & O).
  assert (r = IoOk).
  { unfold read_from_socket in E. cbn [negb] in E. replace (ssize_neg n) with false in E by (symmetry; apply Z.ltb_ge; lia).
    change r with (fst (fst (r, got', rest'))). rewrite <- E. apply read_loop_completes; [rewrite app_length; lia|exact G2|].
    eapply Forall_impl; [|exact G1]. intros e (e1 & e2) [K|K]; congruence. }
  subst r. rewrite E. destruct (app_same_length got got' rest rest') as (-> & ->); auto. rewrite L, O; auto.
Qed.
Lemma head_extract c q : valid c q -> extract_header (c_big c) (head q) 0 = Ok (mkHeader (q_port q) (q_fed q) (size q mod two32)).
Proof.
  intros (_ & Hp & Hp' & Hf & Hf' & _). unfold extract_header, head.
  pose proof (extract_uint16_at (c_big c) [] (little_endian 2 (q_fed q) ++ little_endian 4 (size q)) (q_port q)) as E1.
  rewrite encode_uint16_le in E1. cbn [app length] in E1. rewrite E1 by (unfold in_uint16; lia). cbn [bind].
  pose proof (extract_uint16_at (c_big c) (little_endian 2 (q_port q)) (little_endian 4 (size q)) (q_fed q)) as E2.
  rewrite encode_uint16_le, little_endian_length in E2. change (0 + 2)%nat with 2%nat. rewrite E2 by (unfold in_uint16; lia). cbn [bind].
  pose proof (extract_uint32_le (c_big c) (little_endian 2 (q_port q) ++ little_endian 2 (q_fed q)) [] (size q)) as E3.
  rewrite app_length, !little_endian_length, app_nil_r, <- app_assoc in E3. change (2 + 2)%nat with 4%nat in E3. change (0 + 4)%nat with 4%nat.
  rewrite E3. reflexivity.
Qed.
Lemma mod32 z : 0 <= z mod two32 <= LLONG_MAX.
Proof. pose proof (Z.mod_pos_bound z two32). unfold two32, LLONG_MAX in *. lia. Qed.

(** One whole message, whatever its length. *)
Lemma listen_step c et eh eb rs r q rest (n := Z.to_nat (size q mod two32)) : valid c q -> c_log c = false ->
  rd_good 1 et -> rd_good 8 eh -> rd_good n eb ->
  listen c (((et, eh), eb) :: rs) r (on_wire q ++ rest) =
  listen c rs (schedule_value r (q_port q) (size q mod two32) (firstn n (q_body q))) (skipn n (q_body q) ++ rest).
Proof.
  intros V G Ht Hh Hb. cbn [listen]. rewrite on_wire_split, <- app_assoc. rewrite (read_socket_good 1) by (try exact Ht; try reflexivity; unfold LLONG_MAX; lia).
  cbn [nth]. change (17 =? MSG_TYPE_P2P_MESSAGE) with true. cbv iota. unfold handle_message. rewrite <- app_assoc.
  rewrite (read_socket_good 8) by (try exact Hh; try (rewrite head_length; reflexivity); unfold LLONG_MAX; lia).
  rewrite (head_extract c q V). cbn [bind h_port h_fed h_length].
  destruct V as (_ & Hp & _ & Hf & _). rewrite Hf, Z.eqb_refl. cbn [negb]. replace (q_port q <? c_ports c) with true by (symmetry; apply Z.ltb_lt; lia). cbn [negb].
  rewrite <- (firstn_skipn n (q_body q)) at 1. rewrite <- app_assoc.
  rewrite (read_socket_good (size q mod two32) eb); [|apply mod32|exact Hb|].
  - rewrite G. cbn [print_string andb bind]. reflexivity.
  - apply firstn_length_le. unfold n. pose proof (Z.mod_le (size q) two32). unfold size, two32 in *. lia.
Qed.
Lemma small_schedule r port n v : 0 <= n < 2147483648 -> schedule_value r port n v = mkReceiver (r_got r ++ [(port, v)]) (r_leaked r).
Proof.
  intros Hn. unfold schedule_value, to_int32, to_signed. change two32 with 4294967296. rewrite Z.mod_small by lia.
  change (2 ^ (32 - 1)) with 2147483648. replace (n <? 2147483648) with true by (symmetry; apply Z.ltb_lt; lia). replace (n <? 0) with false by (symmetry; apply Z.ltb_ge; lia). reflexivity.
Qed.
Lemma large_schedule r port n v : 2147483648 <= n < 4294967296 -> schedule_value r port n v = mkReceiver (r_got r) (r_leaked r ++ [v]).
Proof.
  intros Hn. unfold schedule_value, to_int32, to_signed. change two32 with 4294967296. rewrite Z.mod_small by lia.
  change (2 ^ (32 - 1)) with 2147483648. replace (n <? 2147483648) with false by (symmetry; apply Z.ltb_ge; lia). change (2 ^ 32) with 4294967296. replace (n - 4294967296 <? 0) with true by (symmetry; apply Z.ltb_lt; lia). reflexivity.
Qed.

Lemma listen_complete c : forall ms rs r, Forall (valid c) ms -> Forall (fun q => size q < 2147483648) ms -> c_log c = false ->
  Forall2 round_good ms rs -> listen c rs r (concat (map on_wire ms)) = Ok (mkReceiver (r_got r ++ map contents ms) (r_leaked r), Waiting).
Proof.
  induction ms as [|q ms IH]; intros rs r V B G F; inversion_clear F as [|? x ? rs' F1 F2].
  { cbn. rewrite app_nil_r. destruct r; reflexivity. }
  inversion_clear V as [|? ? V1 V2]. inversion_clear B as [|? ? B1 B2]. destruct x as [[et eh] eb]. destruct F1 as (Ft & Fh & Fb). cbn [fst snd] in *.
  assert (M : size q mod two32 = size q) by (apply Z.mod_small; unfold size, two32 in *; lia).
  assert (L : Z.to_nat (size q mod two32) = length (q_body q)) by (rewrite M; unfold size; lia).
  cbn [map concat]. rewrite listen_step; auto; [|rewrite L; exact Fb].
  rewrite L, firstn_all, skipn_all, M, small_schedule by (unfold size in *; lia). cbn [app]. rewrite IH by auto. cbn [r_got r_leaked map]. rewrite <- app_assoc. reflexivity.
Qed.

Lemma listen_prefix c : forall rs ms stream tail r, Forall (valid c) ms -> Forall (fun q => size q < 2147483648) ms -> c_log c = false ->
  concat (map on_wire ms) = stream ++ tail ->
  exists k r' e, listen c rs r stream = Ok (r', e) /\ r_got r' = r_got r ++ map contents (firstn k ms) /\ (k <= length ms)%nat /\
  (length (concat (map on_wire (firstn k ms))) <= length stream)%nat /\ (e = Waiting \/ e = Closed) /\
  (e = Waiting -> r_leaked r' = r_leaked r) /\ (length (r_leaked r') <= length (r_leaked r) + 1)%nat.
Proof.
  induction rs as [|[[et eh] eb] rs IH]; intros ms stream tail r V B G X; cbn [listen].
  { exists 0%nat, r, Waiting. cbn. rewrite app_nil_r. repeat split; auto; lia. }
  assert (Stop : forall e, e = Waiting \/ e = Closed -> exists k r' e', Ok (r, e) = Ok (r', e') /\ r_got r' = r_got r ++ map contents (firstn k ms) /\
    (k <= length ms)%nat /\ (length (concat (map on_wire (firstn k ms))) <= length stream)%nat /\ (e' = Waiting \/ e' = Closed) /\
    (e' = Waiting -> r_leaked r' = r_leaked r) /\ (length (r_leaked r') <= length (r_leaked r) + 1)%nat).
  { intros e He. exists 0%nat, r, e. cbn. rewrite app_nil_r. repeat split; auto; lia. }
  destruct (read_socket 1 et stream) as (r1 & got & rest & -> & S1 & O1); [unfold LLONG_MAX; lia|].
  destruct r1; try (apply Stop; auto; fail).
  specialize (O1 eq_refl). change (Z.to_nat 1) with 1%nat in O1. subst stream.
  destruct ms as [|q ms]. { cbn in X. destruct got; [discriminate O1|discriminate X]. }
  inversion_clear V as [|? ? V1 V2]. inversion_clear B as [|? ? B1 B2]. cbn [map concat] in X. rewrite on_wire_split in X. rewrite <- !app_assoc in X.
  apply app_same_length in X; [|cbn; lia]. destruct X as (<- & X). cbn [nth]. change (17 =? MSG_TYPE_P2P_MESSAGE) with true. cbv iota.
  unfold handle_message.
  destruct (read_socket 8 eh rest) as (r2 & got2 & rest2 & -> & S2 & O2); [unfold LLONG_MAX; lia|].
  destruct r2; try (cbn [bind]; apply Stop; auto; fail).
  specialize (O2 eq_refl). subst rest. rewrite <- !app_assoc in X. apply app_same_length in X; [|rewrite O2, head_length; reflexivity]. destruct X as (<- & X).
  rewrite (head_extract c q V1). cbn [bind h_port h_fed h_length].
  pose proof V1 as (_ & Hp & _ & Hf & _). rewrite Hf, Z.eqb_refl. cbn [negb]. replace (q_port q <? c_ports c) with true by (symmetry; apply Z.ltb_lt; lia). cbn [negb].
  assert (M : size q mod two32 = size q) by (apply Z.mod_small; unfold size, two32 in *; lia). rewrite M.
  destruct (read_socket (size q) eb rest2) as (r3 & got3 & rest3 & -> & S3 & O3); [unfold LLONG_MAX, size in *; lia|].
  destruct r3.
  - specialize (O3 eq_refl). subst rest2. rewrite <- !app_assoc in X. apply app_same_length in X; [|rewrite O3; unfold size; lia]. destruct X as (<- & X).
    rewrite G. cbn [print_string andb bind]. rewrite small_schedule by (unfold size in *; lia).
    destruct (IH ms rest3 tail (mkReceiver (r_got r ++ [(q_port q, q_body q)]) (r_leaked r)) V2 B2 G X) as (k & r' & e & E & K1 & K2 & K3 & K4 & K5 & K6).
    exists (S k), r', e. split; [exact E|]. cbn [firstn map r_got r_leaked length concat] in *. rewrite K1, <- app_assoc. repeat split; auto; [lia|].
    rewrite !app_length, on_wire_length, head_length. cbn [length]. lia.
  - cbn [bind]. eexists 0%nat, _, Closed. split; [reflexivity|]. cbn. rewrite app_nil_r, app_length. cbn. repeat split; auto; try lia; discriminate.
  - cbn [bind]. eexists 0%nat, _, Closed. split; [reflexivity|]. cbn. rewrite app_nil_r, app_length. cbn. repeat split; auto; try lia; discriminate.
  - cbn [bind]. exact (Stop Waiting (or_introl eq_refl)).
Qed.

Lemma firstn_concat_length {A} (ls : list (list A)) : forall k m, (k <= m)%nat -> (length (concat (firstn k ls)) <= length (concat (firstn m ls)))%nat.
Proof.
  induction ls as [|l ls IH]; intros [|k] [|m] H; cbn; try lia. rewrite !app_length. specialize (IH k m). lia.
Qed.

(** A connection that ends within the contents. *)
Lemma read_until_eof : forall stream want buf, (length stream < want)%nat ->
  read_loop (repeat (RSome 1) (length stream) ++ [REof]) stream want buf = (IoEof, buf ++ stream, []).
Proof.
  induction stream as [|x stream IH]; intros want buf L; destruct want as [|w]; cbn [length] in L; try lia.
  - cbn. rewrite app_nil_r. reflexivity.
  - cbn [length repeat app read_loop]. replace (Nat.min (Nat.max 1 1) (Nat.min (S w) (S (length stream)))) with 1%nat by lia.
    cbn [skipn firstn]. rewrite IH by lia. rewrite <- app_assoc. reflexivity.
Qed.
