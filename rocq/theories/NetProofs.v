(** Proofs about the network layer. *)
From Verif Require Import Base Tag TagSpec TagProofs Net NetSpec.
From Coq Require Import Arith.
Open Scope Z_scope.

Lemma land_shift v m s : 0 <= s -> Z.shiftr (Z.land v m) s = Z.land (Z.shiftr v s) (Z.shiftr m s).
Proof. intros. apply Z.shiftr_land. Qed.
Lemma land_255 x : Z.land x 255 mod 256 = x mod 256.
Proof. change 255 with (Z.ones 8). rewrite Z.land_ones by lia. change (2 ^ 8) with 256. apply Z.mod_mod. lia. Qed.
Lemma land_m1 x : Z.land x (-1) = x. Proof. apply Z.land_m1_r. Qed.

Lemma le_4 v : little_endian 4 v = [v mod 256; (v / 256) mod 256; (v / 65536) mod 256; (v / 16777216) mod 256].
Proof. unfold little_endian. cbn [seq map]. rewrite Z.div_1_r. reflexivity. Qed.
Lemma le_2 v : little_endian 2 v = [v mod 256; (v / 256) mod 256].
Proof. unfold little_endian. cbn [seq map]. rewrite Z.div_1_r. reflexivity. Qed.

Lemma encode_int64_le v : encode_int64 v = little_endian 8 v.
Proof.
  unfold encode_int64, little_endian. cbn [seq map].
  assert (K : forall i, In i [0; 1; 2; 3; 4; 5; 6] -> encode_int64_byte v i = (v / 256 ^ i) mod 256).
  { intros i Hi. unfold encode_int64_byte, byte_of. rewrite land_shift by (cbn in Hi; lia).
    replace (Z.shiftr (wrap64 (Z.shiftl 255 (8 * i))) (8 * i)) with 255 by (cbn in Hi; decompose [or] Hi; subst; try reflexivity; contradiction).
    rewrite land_255, Z.shiftr_div_pow2 by (cbn in Hi; lia). rewrite Z.pow_mul_r by (cbn in Hi; lia). reflexivity. }
  assert (K7 : encode_int64_byte v 7 = (v / 256 ^ 7) mod 256).
  { unfold encode_int64_byte, byte_of. rewrite land_shift by lia. replace (Z.shiftr (wrap64 (Z.shiftl 255 (8 * 7))) (8 * 7)) with (-1) by reflexivity.
    rewrite land_m1, Z.shiftr_div_pow2 by lia. reflexivity. }
  change (Z.of_nat 0) with 0; change (Z.of_nat 1) with 1; change (Z.of_nat 2) with 2; change (Z.of_nat 3) with 3; change (Z.of_nat 4) with 4; change (Z.of_nat 5) with 5; change (Z.of_nat 6) with 6; change (Z.of_nat 7) with 7.
  rewrite K7, !K by (cbn; tauto). reflexivity.
Qed.

Lemma byte_part v s m d : 0 <= s -> Z.shiftr m s = 255 -> d = 2 ^ s -> byte_of (Z.shiftr (Z.land v m) s) = (v / d) mod 256.
Proof. intros Hs Hm ->. unfold byte_of. rewrite land_shift by lia. rewrite Hm, land_255, Z.shiftr_div_pow2 by lia. reflexivity. Qed.
Lemma encode_int32_le v : encode_int32 v = little_endian 4 v.
Proof.
  rewrite le_4. unfold encode_int32. f_equal; [apply land_255|]. f_equal; [apply byte_part; reflexivity || lia|]. f_equal; [apply byte_part; reflexivity || lia|]. f_equal.
  unfold byte_of. rewrite land_shift by lia. replace (Z.shiftr (-16777216) 24) with (-1) by reflexivity. rewrite land_m1, Z.shiftr_div_pow2 by lia. reflexivity.
Qed.
Lemma encode_uint32_le v : encode_uint32 v = little_endian 4 v.
Proof.
  rewrite le_4. unfold encode_uint32. f_equal; [apply land_255|]. do 2 (f_equal; [apply byte_part; reflexivity || lia|]). f_equal. apply byte_part; reflexivity || lia.
Qed.
Lemma encode_uint16_le v : encode_uint16 v = little_endian 2 v.
Proof. rewrite le_2. unfold encode_uint16. f_equal; [apply land_255|]. f_equal. apply byte_part; reflexivity || lia. Qed.

(** ** Memory *)
Lemma to_mem_le_length n : forall v, length (to_mem_le n v) = n.
Proof. induction n as [|n IH]; intros v; cbn; [reflexivity|]. rewrite IH. reflexivity. Qed.
Lemma to_mem_le_spec n : forall v, to_mem_le n v = little_endian n v.
Proof.
  unfold little_endian. induction n as [|n IH]; intros v; [reflexivity|]. cbn [to_mem_le seq map]. rewrite Z.div_1_r. f_equal.
  rewrite IH, <- seq_shift, map_map. apply map_ext. intros i. rewrite Z.div_div by lia. f_equal. f_equal. rewrite Nat2Z.inj_succ, Z.pow_succ_r by lia. reflexivity.
Qed.
Lemma little_endian_length n v : length (little_endian n v) = n.
Proof. unfold little_endian. rewrite map_length, seq_length. reflexivity. Qed.
Lemma to_mem_le_bytes n : forall v, Forall is_byte (to_mem_le n v).
Proof. induction n as [|n IH]; intros v; cbn; constructor; [apply Z.mod_pos_bound; lia|apply IH]. Qed.
Lemma from_to n : forall v, from_mem_le (to_mem_le n v) = v mod 256 ^ Z.of_nat n.
Proof.
  induction n as [|n IH]; intros v; [cbn; rewrite Z.mod_1_r; reflexivity|]. cbn [to_mem_le from_mem_le]. rewrite IH, Nat2Z.inj_succ, Z.pow_succ_r by lia.
  rewrite Z.rem_mul_r by lia. reflexivity.
Qed.
Lemma to_from c : Forall is_byte c -> to_mem_le (length c) (from_mem_le c) = c.
Proof.
  induction c as [|b c IH]; intros H; [reflexivity|]. inversion_clear H. cbn [length to_mem_le from_mem_le]. unfold is_byte in *.
  replace (b + 256 * from_mem_le c) with (b + from_mem_le c * 256) by lia. rewrite Z.mod_add, Z.div_add, Z.mod_small, Z.div_small by lia. cbn [Z.add]. rewrite IH by assumption. reflexivity.
Qed.
Lemma from_range c : Forall is_byte c -> 0 <= from_mem_le c < 256 ^ Z.of_nat (length c).
Proof.
  induction 1 as [|b c Hb Hc IH]; [cbn; lia|]. cbn [length from_mem_le]. rewrite Nat2Z.inj_succ, Z.pow_succ_r by lia. unfold is_byte in Hb. lia.
Qed.
Lemma to_mem_le_mod n : forall v, to_mem_le n (v mod 256 ^ Z.of_nat n) = to_mem_le n v.
Proof.
  intros v. rewrite <- from_to. rewrite <- (to_mem_le_length n v) at 1. apply to_from, to_mem_le_bytes.
Qed.
Lemma to_signed_mod bits v : 0 < bits -> 0 <= v < 2 ^ bits -> to_signed bits v mod 2 ^ bits = v.
Proof.
  intros Hb Hv. unfold to_signed. destruct (v <? 2 ^ (bits - 1)); [apply Z.mod_small; lia|].
  replace (v - 2 ^ bits) with (v + (-1) * 2 ^ bits) by lia. rewrite Z.mod_add by lia. apply Z.mod_small; lia.
Qed.
Lemma to_mem_signed n v : (0 < n)%nat -> 0 <= v < 256 ^ Z.of_nat n -> to_mem_le n (to_signed (8 * Z.of_nat n) v) = to_mem_le n v.
Proof.
  intros Hn Hv. rewrite <- (to_mem_le_mod n (to_signed _ _)). f_equal. change 256 with (2 ^ 8) in Hv |- *. rewrite <- Z.pow_mul_r in Hv |- * by lia. apply to_signed_mod; lia.
Qed.
Lemma host_big big : host_is_big_endian big = big. Proof. destruct big; reflexivity. Qed.
Lemma xchg_8 c : length c = 8%nat -> xchg 3 4 (xchg 2 5 (xchg 1 6 (xchg 0 7 c))) = rev c.
Proof. intros H. do 8 (destruct c as [|? c]; [discriminate|]). destruct c; [reflexivity|discriminate]. Qed.
Lemma xchg_4 c : length c = 4%nat -> xchg 1 2 (xchg 0 3 c) = rev c.
Proof. intros H. do 4 (destruct c as [|? c]; [discriminate|]). destruct c; [reflexivity|discriminate]. Qed.
Lemma xchg_2 c : length c = 2%nat -> xchg 0 1 c = rev c.
Proof. intros H. do 2 (destruct c as [|? c]; [discriminate|]). destruct c; [reflexivity|discriminate]. Qed.

(** On either host the value read is the one whose little-endian bytes are in the buffer. *)
Lemma read64 big c : Forall is_byte c -> length c = 8%nat -> swap_int64 big (to_signed 64 (umem big c)) = to_signed 64 (from_mem_le c).
Proof.
  intros Hb Hl. unfold swap_int64. rewrite host_big. destruct big; [|reflexivity]. unfold umem, to_mem.
  assert (Hr : Forall is_byte (rev c)) by (apply Forall_rev, Hb). pose proof (from_range _ Hr) as R. rewrite rev_length, Hl in R.
  rewrite (to_mem_signed 8) by (lia || exact R). replace 8%nat with (length (rev c)) at 1 by (rewrite rev_length; exact Hl). rewrite to_from by exact Hr. rewrite rev_involutive.
  rewrite xchg_8 by exact Hl. rewrite rev_involutive. reflexivity.
Qed.
Lemma read32 big c : Forall is_byte c -> length c = 4%nat -> swap_int32 big (to_signed 32 (umem big c)) = to_signed 32 (from_mem_le c).
Proof.
  intros Hb Hl. unfold swap_int32. rewrite host_big. destruct big; [|reflexivity]. unfold umem, to_mem.
  assert (Hr : Forall is_byte (rev c)) by (apply Forall_rev, Hb). pose proof (from_range _ Hr) as R. rewrite rev_length, Hl in R.
  rewrite (to_mem_signed 4) by (lia || exact R). replace 4%nat with (length (rev c)) at 1 by (rewrite rev_length; exact Hl). rewrite to_from by exact Hr. rewrite rev_involutive.
  rewrite xchg_4 by exact Hl. rewrite rev_involutive. reflexivity.
Qed.
Lemma readu32 big c : Forall is_byte c -> length c = 4%nat -> swap_uint32 big (umem big c) = from_mem_le c.
Proof.
  intros Hb Hl. unfold swap_uint32. rewrite host_big. destruct big; [|reflexivity]. unfold umem, to_mem.
  assert (Hr : Forall is_byte (rev c)) by (apply Forall_rev, Hb).
  replace 4%nat with (length (rev c)) at 1 by (rewrite rev_length; exact Hl). rewrite to_from by exact Hr. rewrite rev_involutive.
  rewrite xchg_4 by exact Hl. rewrite rev_involutive. reflexivity.
Qed.
Lemma readu16 big c : Forall is_byte c -> length c = 2%nat -> swap_uint16 big (umem big c) = from_mem_le c.
Proof.
  intros Hb Hl. unfold swap_uint16. rewrite host_big. destruct big; [|reflexivity]. unfold umem, to_mem.
  assert (Hr : Forall is_byte (rev c)) by (apply Forall_rev, Hb).
  replace 2%nat with (length (rev c)) at 1 by (rewrite rev_length; exact Hl). rewrite to_from by exact Hr. rewrite rev_involutive.
  rewrite xchg_2 by exact Hl. rewrite rev_involutive. reflexivity.
Qed.

Lemma little_endian_bytes n v : Forall is_byte (little_endian n v).
Proof. rewrite <- to_mem_le_spec. apply to_mem_le_bytes. Qed.
Lemma from_little n v : from_mem_le (little_endian n v) = v mod 256 ^ Z.of_nat n.
Proof. rewrite <- to_mem_le_spec. apply from_to. Qed.

Lemma bytes_at_app pre c post n : length c = n -> bytes_at (pre ++ c ++ post) (length pre) n = Ok c.
Proof.
  intros H. unfold bytes_at. replace (_ <=? _)%nat with true by (symmetry; apply Nat.leb_le; rewrite !app_length; lia).
  rewrite skipn_app, skipn_all, Nat.sub_diag. cbn [app skipn]. rewrite firstn_app, H, Nat.sub_diag, <- H, firstn_all. cbn. rewrite app_nil_r. reflexivity.
Qed.
Lemma signed_back bits v : 0 < bits -> - 2 ^ (bits - 1) <= v < 2 ^ (bits - 1) -> to_signed bits (v mod 2 ^ bits) = v.
Proof.
  intros Hb Hv. assert (E : 2 ^ bits = 2 * 2 ^ (bits - 1)) by (rewrite <- Z.pow_succ_r by lia; f_equal; lia). unfold to_signed.
  destruct (Z_lt_dec v 0) as [K|K].
  - replace (v mod 2 ^ bits) with (v + 2 ^ bits) by (apply (Z.mod_unique_pos _ _ (-1)); lia). destruct (v + 2 ^ bits <? 2 ^ (bits - 1)) eqn:C; lia.
  - rewrite Z.mod_small by lia. destruct (v <? 2 ^ (bits - 1)) eqn:C; lia.
Qed.

Lemma extract_int64_at big pre post v : in_int64 v -> extract_int64 big (pre ++ encode_int64 v ++ post) (length pre) = Ok v.
Proof.
  intros Hv. unfold extract_int64. rewrite encode_int64_le, bytes_at_app by apply little_endian_length. cbn [bind]. f_equal.
  rewrite read64 by (apply little_endian_bytes || apply little_endian_length). rewrite from_little. change (256 ^ Z.of_nat 8) with (2 ^ 64). apply signed_back; [lia|]. unfold in_int64, LLONG_MIN, LLONG_MAX in Hv. cbn. lia.
Qed.
Lemma extract_int32_at big pre post v : in_int32 v -> extract_int32 big (pre ++ encode_int32 v ++ post) (length pre) = Ok v.
Proof.
  intros Hv. unfold extract_int32. rewrite encode_int32_le, bytes_at_app by apply little_endian_length. cbn [bind]. f_equal.
  rewrite read32 by (apply little_endian_bytes || apply little_endian_length). rewrite from_little. change (256 ^ Z.of_nat 4) with (2 ^ 32). apply signed_back; [lia|]. unfold in_int32 in Hv. cbn. lia.
Qed.
Lemma extract_uint32_le big pre post v : extract_uint32 big (pre ++ little_endian 4 v ++ post) (length pre) = Ok (v mod two32).
Proof.
  unfold extract_uint32. rewrite bytes_at_app by apply little_endian_length. cbn [bind]. f_equal.
  rewrite readu32 by (apply little_endian_bytes || apply little_endian_length). apply from_little.
Qed.
Lemma extract_uint32_at big pre post v : in_uint32 v -> extract_uint32 big (pre ++ encode_uint32 v ++ post) (length pre) = Ok v.
Proof. intros Hv. rewrite encode_uint32_le, extract_uint32_le. f_equal. unfold in_uint32, UINT_MAX, two32 in *. apply Z.mod_small; lia. Qed.
Lemma extract_uint16_at big pre post v : in_uint16 v -> extract_uint16 big (pre ++ encode_uint16 v ++ post) (length pre) = Ok v.
Proof.
  intros Hv. unfold extract_uint16. rewrite encode_uint16_le, bytes_at_app by apply little_endian_length. cbn [bind]. f_equal.
  rewrite readu16 by (apply little_endian_bytes || apply little_endian_length). rewrite from_little. change (256 ^ Z.of_nat 2) with 65536. unfold in_uint16 in Hv. apply Z.mod_small; lia.
Qed.
Lemma encode_int64_len v : length (encode_int64 v) = 8%nat. Proof. reflexivity. Qed.
Lemma encode_uint32_len v : length (encode_uint32 v) = 4%nat. Proof. reflexivity. Qed.
Lemma encode_uint16_len v : length (encode_uint16 v) = 2%nat. Proof. reflexivity. Qed.
Lemma encode_tag_len g : length (encode_tag g) = 12%nat. Proof. reflexivity. Qed.

Lemma off_app (pre x : list Z) n : length x = n -> (length pre + n)%nat = length (pre ++ x).
Proof. intros H. rewrite app_length. lia. Qed.
Lemma extract_tag_at big pre post g : tag_ok g -> extract_tag big (pre ++ encode_tag g ++ post) (length pre) = Ok g.
Proof.
  intros (Ht & Hm). unfold extract_tag, encode_tag. rewrite <- app_assoc, extract_int64_at by exact Ht. cbn [bind].
  rewrite (off_app pre (encode_int64 (ttime g)) 8) by reflexivity. rewrite (app_assoc pre), extract_uint32_at by exact Hm. destruct g; reflexivity.
Qed.
Lemma extract_tag_message big pre post g : tag_ok g ->
  extract_tag big (pre ++ (encode_int64 (ttime g) ++ encode_int32 (to_int32 (tmicro g))) ++ post) (length pre) = Ok g.
Proof.
  intros (Ht & Hm). unfold extract_tag. rewrite <- app_assoc, extract_int64_at by exact Ht. cbn [bind].
  rewrite (off_app pre (encode_int64 (ttime g)) 8) by reflexivity. rewrite (app_assoc pre), encode_int32_le, extract_uint32_le. cbn [bind]. destruct g as [t m]; cbn in *. do 2 f_equal.
  unfold to_int32. change two32 with (2 ^ 32). unfold in_uint32, UINT_MAX in Hm. rewrite to_signed_mod by (try apply Z.mod_pos_bound; lia). apply Z.mod_small; cbn; lia.
Qed.
Lemma extract_timed_header_at big pre post port fed n g : in_uint16 port -> in_uint16 fed -> in_uint32 n -> tag_ok g ->
  extract_timed_header big (pre ++ (encode_uint16 port ++ encode_uint16 fed ++ encode_uint32 n ++ encode_tag g) ++ post) (length pre) = Ok (mkHeader port fed n, g).
Proof.
  intros Hp Hf Hn Hg. unfold extract_timed_header, extract_header. rewrite <- !app_assoc. rewrite extract_uint16_at by exact Hp. cbn [bind].
  rewrite (off_app pre (encode_uint16 port) 2) by reflexivity. rewrite (app_assoc pre), extract_uint16_at by exact Hf. cbn [bind].
  replace (length pre + 4)%nat with (length ((pre ++ encode_uint16 port) ++ encode_uint16 fed)) by (rewrite !app_length; cbn; lia). rewrite (app_assoc (pre ++ _)), extract_uint32_at by exact Hn. cbn [bind].
  replace (length pre + 8)%nat with (length (((pre ++ encode_uint16 port) ++ encode_uint16 fed) ++ encode_uint32 n)) by (rewrite !app_length; cbn; lia). rewrite (app_assoc ((pre ++ _) ++ _)), extract_tag_at by exact Hg. reflexivity.
Qed.

Lemma extract_port_absent_at big pre post port fed g : in_uint16 port -> in_uint16 fed -> tag_ok g ->
  extract_port_absent big (pre ++ (encode_uint16 port ++ encode_uint16 fed ++ encode_tag g) ++ post) (length pre) = Ok (port, fed, g).
Proof.
  intros Hp Hf Hg. unfold extract_port_absent. rewrite <- !app_assoc. rewrite extract_uint16_at by exact Hp. cbn [bind].
  rewrite (off_app pre (encode_uint16 port) 2) by reflexivity. rewrite (app_assoc pre), extract_uint16_at by exact Hf. cbn [bind].
  replace (length pre + 4)%nat with (length ((pre ++ encode_uint16 port) ++ encode_uint16 fed)) by (rewrite !app_length; cbn; lia). rewrite (app_assoc (pre ++ _)), extract_tag_at by exact Hg. reflexivity.
Qed.

(** ** Sockets *)
Lemma read_loop_gen evs : forall stream want buf r b rest, read_loop evs stream want buf = (r, b, rest) ->
  exists got, b = buf ++ got /\ stream = got ++ rest /\ (length got <= want)%nat /\ (r = IoOk -> length got = want) /\
  (r = IoErr -> In RErr evs) /\ (r = IoEof -> In REof evs).
Proof.
  induction evs as [|e evs IH]; intros stream want buf r b rest H; destruct want as [|w]; cbn [read_loop] in H;
    try (injection H as <- <- <-; exists []; rewrite app_nil_r; repeat split; cbn; (lia || discriminate)).
  destruct e as [n| | |].
  - remember (Nat.min (Nat.max 1 n) (Nat.min (S w) (length stream))) as k eqn:Ek. destruct k as [|k].
    + injection H as <- <- <-. exists []. rewrite app_nil_r. repeat split; cbn; (lia || discriminate).
    + apply IH in H. destruct H as (got & -> & E & L & O & R1 & R2). assert (Hk : (S k <= length stream)%nat) by lia.
      exists (firstn (S k) stream ++ got). rewrite app_assoc, <- app_assoc. split; [rewrite app_assoc; reflexivity|]. split; [rewrite <- app_assoc, <- E, firstn_skipn; reflexivity|].
      rewrite app_length, firstn_length_le by exact Hk. repeat split; [lia|intros K; specialize (O K); lia|right; auto|right; auto].
  - apply IH in H. destruct H as (got & -> & E & L & O & R1 & R2). exists got. repeat split; auto; right; auto.
  - injection H as <- <- <-. exists []. rewrite app_nil_r. repeat split; cbn; try lia; try discriminate; intros _; now left.
  - injection H as <- <- <-. exists []. rewrite app_nil_r. repeat split; cbn; try lia; try discriminate; intros _; now left.
Qed.
Lemma read_loop_completes evs : forall stream want buf, (want <= length stream)%nat -> (want <= length (filter rd_delivers evs))%nat ->
  Forall (fun e => ~ rd_fails e) evs -> fst (fst (read_loop evs stream want buf)) = IoOk.
Proof.
  induction evs as [|e evs IH]; intros stream want buf Hs Hd Hf; destruct want as [|w]; cbn [read_loop]; try reflexivity; [cbn in Hd; lia|].
  inversion_clear Hf as [|? ? He Hf']. destruct e as [n| | |].
  - remember (Nat.min (Nat.max 1 n) (Nat.min (S w) (length stream))) as k eqn:Ek. destruct k as [|k]; [lia|]. apply IH; [rewrite skipn_length; lia|cbn in Hd; lia|exact Hf'].
  - apply IH; [exact Hs|exact Hd|exact Hf'].
  - elim He. now left.
  - elim He. now right.
Qed.
Lemma write_loop_gen evs : forall todo out r o, write_loop evs todo out = (r, o) ->
  exists sent rest, todo = sent ++ rest /\ o = out ++ sent /\ (r = IoOk -> rest = []) /\ (r = IoErr -> In WErr evs) /\ r <> IoEof.
Proof.
  induction evs as [|e evs IH]; intros todo out r o H; destruct todo as [|x todo]; cbn [write_loop] in H;
    try (injection H as <- <-; exists []; eexists; split; [reflexivity|]; split; [symmetry; apply app_nil_r|]; repeat split; (discriminate || reflexivity)).
  destruct e as [n| |].
  - apply IH in H. destruct H as (sent & rest & E & -> & O & R1 & R2). set (k := Nat.min n (length (x :: todo))) in *.
    exists (firstn k (x :: todo) ++ sent), rest. rewrite <- app_assoc, <- E, firstn_skipn, app_assoc. repeat split; auto. right; auto.
  - apply IH in H. destruct H as (sent & rest & E & -> & O & R1 & R2). exists sent, rest. repeat split; auto. right; auto.
  - injection H as <- <-. exists []; eexists; split; [reflexivity|]; split; [symmetry; apply app_nil_r|]; repeat split; try discriminate; intros _; now left.
Qed.
Lemma write_loop_completes evs : forall todo out, (length todo <= length (filter wr_delivers evs))%nat ->
  ~ In WErr evs -> fst (write_loop evs todo out) = IoOk.
Proof.
  induction evs as [|e evs IH]; intros todo out Hd Hf; destruct todo as [|x todo]; cbn [write_loop]; try reflexivity; [cbn in Hd; lia|].
  destruct e as [n| |].
  - apply IH; [|intros K; apply Hf; now right]. rewrite skipn_length. destruct n as [|n]; cbn [filter wr_delivers length] in Hd |- *; lia.
  - apply IH; [exact Hd|intros K; apply Hf; now right].
  - elim Hf. now left.
Qed.

(** ** Forwarding *)
Lemma store_at_ok buf off bs : (off + length bs <= length buf)%nat -> store_at buf off bs = Ok (firstn off buf ++ bs ++ skipn (off + length bs) buf).
Proof. intros H. unfold store_at. replace (_ <=? _)%nat with true by (symmetry; apply Nat.leb_le; exact H). reflexivity. Qed.
Lemma firstn_app_exact {A} (a b : list A) n : length a = n -> firstn n (a ++ b) = a.
Proof. intros H. rewrite firstn_app, <- H, Nat.sub_diag, firstn_all. cbn. apply app_nil_r. Qed.
Lemma skipn_app_exact {A} (a b : list A) n : length a = n -> skipn n (a ++ b) = b.
Proof. intros H. rewrite skipn_app, <- H, Nat.sub_diag, skipn_all. reflexivity. Qed.
Lemma recv_ok buf off n bs rest : length bs = n -> (off + n <= length buf)%nat ->
  recv buf off n (bs ++ rest) = Ok (Some (firstn off buf ++ bs ++ skipn (off + n) buf, rest)).
Proof.
  intros H Hb. unfold recv. replace (n <=? length (bs ++ rest))%nat with true by (symmetry; apply Nat.leb_le; rewrite app_length; lia).
  rewrite firstn_app_exact, skipn_app_exact by exact H. rewrite store_at_ok by lia. rewrite H. reflexivity.
Qed.
Lemma recv_length off n (buf bs : list Z) : (off + length bs <= length buf)%nat -> n = length bs -> length (firstn off buf ++ bs ++ skipn (off + n) buf) = length buf.
Proof. intros H ->. rewrite !app_length, firstn_length, skipn_length. lia. Qed.

Lemma chunks_ok drop : forall fuel buf payload rest out, (length payload <= fuel)%nat -> length buf = FED_COM_BUFFER_SIZE ->
  chunks fuel drop buf (payload ++ rest) out (length payload) = Ok (Some (rest, if drop then out else out ++ payload)).
Proof.
  induction fuel as [|fuel IH]; intros buf payload rest out Hf Hb.
  - destruct payload; [|cbn in Hf; lia]. cbn. destruct drop; [reflexivity|]. rewrite app_nil_r. reflexivity.
  - destruct payload as [|x p]; [cbn; destruct drop; [reflexivity|]; rewrite app_nil_r; reflexivity|].
    cbn [chunks length]. change (S (length p)) with (length (x :: p)). set (q := x :: p) in *.
    set (n := if (FED_COM_BUFFER_SIZE <? length q)%nat then FED_COM_BUFFER_SIZE else length q).
    assert (Hn : (0 < n <= length q)%nat /\ (n <= FED_COM_BUFFER_SIZE)%nat). { subst n. destruct (Nat.ltb_spec FED_COM_BUFFER_SIZE (length q)); unfold FED_COM_BUFFER_SIZE in *; cbn [q length] in *; lia. }
    rewrite <- (firstn_skipn n q), <- app_assoc. rewrite firstn_skipn. rewrite recv_ok by (try rewrite firstn_length_le; lia). cbn [bind firstn app].
    replace (length q - n)%nat with (length (skipn n q)) by (rewrite skipn_length; reflexivity).
    rewrite IH; [| |].
    + rewrite firstn_app_exact by (rewrite firstn_length_le; lia). destruct drop; [reflexivity|]. rewrite <- app_assoc. rewrite firstn_skipn. reflexivity.
    + rewrite skipn_length. lia.
    + rewrite app_length, firstn_length_le, skipn_length by lia. lia.
Qed.

Lemma forward_ok big n_feds connected type port fed g payload rest buf0 :
  in_uint16 port -> in_uint16 fed -> fed < n_feds -> tag_ok g -> is_byte type -> Z.of_nat (length payload) < two32 -> length (type :: buf0) = FED_COM_BUFFER_SIZE ->
  forward_timed big n_feds connected (type :: buf0)
    (encode_uint16 port ++ encode_uint16 fed ++ encode_uint32 (Z.of_nat (length payload)) ++ encode_tag g ++ payload ++ rest)
  = Ok (Some (mkFwd rest (if connected fed then encode_timed_header type port fed (Z.of_nat (length payload)) g ++ payload else []) fed g)).
Proof.
  intros Hp Hf Hn Hg Ht Hl Hb. unfold forward_timed. unfold two32 in *.
  set (hd := encode_uint16 port ++ encode_uint16 fed ++ encode_uint32 (Z.of_nat (length payload)) ++ encode_tag g).
  assert (Hh : length hd = 20%nat) by reflexivity.
  replace (encode_uint16 port ++ _) with (hd ++ payload ++ rest) by (unfold hd; rewrite <- !app_assoc; reflexivity).
  rewrite recv_ok by (rewrite ?Hb; unfold FED_COM_BUFFER_SIZE, header_size; assumption || lia). cbn [bind].
  replace (firstn 1 (type :: buf0)) with [type] by reflexivity. set (tail1 := skipn (1 + (header_size - 1)) (type :: buf0)).
  assert (Lt : length tail1 = 235%nat) by (unfold tail1; rewrite skipn_length, Hb; reflexivity).
  assert (EH : extract_timed_header big ([type] ++ hd ++ tail1) 1 = Ok (mkHeader port fed (Z.of_nat (length payload)), g)).
  { apply (extract_timed_header_at big [type] tail1); try assumption. unfold in_uint32, UINT_MAX. lia. }
  rewrite EH. cbn [bind h_length h_fed]. rewrite Nat2Z.id.
  set (n := if (FED_COM_BUFFER_SIZE - header_size <? length payload)%nat then (FED_COM_BUFFER_SIZE - header_size)%nat else length payload).
  assert (Hn2 : (n <= length payload)%nat /\ (n <= 235)%nat). { subst n. destruct (Nat.ltb_spec (FED_COM_BUFFER_SIZE - header_size) (length payload)); unfold FED_COM_BUFFER_SIZE, header_size in *; lia. }
  replace (payload ++ rest) with (firstn n payload ++ skipn n payload ++ rest) by (rewrite app_assoc, firstn_skipn; reflexivity). assert (Lf : length (firstn n payload) = n) by (rewrite firstn_length_le; lia).
  rewrite recv_ok; [|exact Lf|rewrite !app_length, Lt, Hh; unfold header_size; cbn [length]; lia]. cbn [bind].
  replace (n_feds <=? fed) with false by (symmetry; apply Z.leb_gt; exact Hn).
  replace (length payload - n)%nat with (length (skipn n payload)) by (rewrite skipn_length; reflexivity).
  rewrite chunks_ok.
  - cbn [bind]. do 3 f_equal. destruct (connected fed); cbn [negb]; [|reflexivity].
    replace (firstn header_size ([type] ++ hd ++ tail1)) with (type :: hd) by (rewrite app_assoc; symmetry; apply firstn_app_exact; reflexivity).
    rewrite (app_assoc (type :: hd)), firstn_app_exact by (rewrite app_length, Lf; cbn [length]; rewrite Hh; reflexivity).
    rewrite <- app_assoc, firstn_skipn. unfold encode_timed_header, byte_of, two32. unfold in_uint16, is_byte in *. rewrite !Z.mod_small by lia. reflexivity.
  - rewrite skipn_length. lia.
  - rewrite !app_length, firstn_length, skipn_length, Lf, !app_length, Lt, Hh. unfold header_size, FED_COM_BUFFER_SIZE. cbn [length]. lia.
Qed.

(** ** Start time *)
Lemma read_timestamp_ok big t : in_int64 t -> read_timestamp big (encode_int64 t) = Ok t.
Proof. intros H. pose proof (extract_int64_at big [] [] t H) as E. rewrite app_nil_r in E. exact E. Qed.

Lemma start_inv n : forall l ts s s', proposes l ts -> start_run false n s l = Ok s' ->
  rs_count s' = (rs_count s + length ts)%nat /\ is_max (rs_max s) ts (rs_max s').
Proof.
  intros l. induction l as [|o l IH]; intros ts s s' Hp Hr.
  - inversion Hp; subst. injection Hr as <-. cbn. split; [lia|]. split; [now left|]. split; [lia|intros t []].
  - cbn [start_run] in Hr. inversion Hp as [|f t l' ts' Hi Hp'|f l' ts' Hp']; subst.
    + cbn [start_step] in Hr. rewrite read_timestamp_ok in Hr by assumption. cbn [bind] in Hr. apply (IH _ _ _ Hp') in Hr. cbn in Hr. destruct Hr as (E & (I & L & U)). split; [cbn; lia|].
      destruct (rs_max s <? t) eqn:C.
      * split; [right; destruct I as [->|I]; [now left|now right]|]. split; [lia|]. intros x [<-|Hx]; [lia|auto].
      * split; [destruct I as [->|I]; [now left|right; now right]|]. split; [lia|]. intros x [<-|Hx]; [lia|auto].
    + destruct (start_step false n s (Reply f)) as [s1|] eqn:E; [|discriminate]. cbn [bind] in Hr. apply (IH _ _ _ Hp') in Hr.
      assert (K : rs_count s1 = rs_count s /\ rs_max s1 = rs_max s). { cbn [start_step] in E. destruct (_ && _); [|injection E as <-; auto]. destruct (start_reply false (rs_max s)) as [r|]; [|discriminate]. injection E as <-. auto. }
      destruct K as (K1 & K2). rewrite K1, K2 in Hr. exact Hr.
Qed.

(** Once all have proposed, the maximum does not change any more. *)
Definition replied (n : nat) (s : rti_start) (f : nat) (r : list Z) : Prop := start_reply false (rs_max s) = Ok r /\ (n <= rs_count s)%nat.
Lemma start_replies n : forall l ts s s', proposes l ts -> start_run false n s l = Ok s' -> (rs_count s + length ts <= n)%nat ->
  (forall f r, In (f, r) (rs_replies s) -> replied n s f r) -> forall f r, In (f, r) (rs_replies s') -> replied n s' f r.
Proof.
  intros l. induction l as [|o l IH]; intros ts s s' Hp Hr Hc H; [injection Hr as <-; exact H|]. cbn [start_run] in Hr. inversion Hp; subst.
  - cbn [start_step] in Hr. rewrite read_timestamp_ok in Hr by assumption. cbn [bind] in Hr. eapply IH; [eassumption|exact Hr|cbn in *; lia|].
    cbn. intros f0 r Hin. destruct (H _ _ Hin) as (_ & K). cbn in Hc. lia.
  - destruct (start_step false n s (Reply f)) as [s1|] eqn:E; [|discriminate]. cbn [bind] in Hr. cbn [start_step] in E.
    destruct (existsb (Nat.eqb f) (rs_proposed s) && (n <=? rs_count s)%nat)%bool eqn:C.
    + destruct (start_reply false (rs_max s)) as [r|] eqn:Er; [|discriminate]. injection E as <-. eapply IH; [eassumption|exact Hr|cbn; lia|].
      cbn. apply andb_true_iff in C. destruct C as (_ & C). apply Nat.leb_le in C. intros f0 r0 [Hin|Hin]; [injection Hin as <- <-; split; assumption|exact (H _ _ Hin)].
    + injection E as <-. eapply IH; eassumption.
Qed.
Lemma start_no_ub n : forall l ts s, proposes l ts -> 0 <= rs_max s <= LLONG_MAX - DELAY_START -> (forall t, In t ts -> t <= LLONG_MAX - DELAY_START) -> exists s', start_run false n s l = Ok s'.
Proof.
  intros l. induction l as [|o l IH]; intros ts s Hp Hm Ht; [eexists; reflexivity|]. cbn [start_run]. inversion Hp; subst.
  - cbn [start_step]. rewrite read_timestamp_ok by assumption. cbn [bind]. eapply IH; [eassumption| |intros; apply Ht; now right]. cbn. specialize (Ht t (or_introl eq_refl)). unfold LLONG_MAX, DELAY_START in *. destruct (rs_max s <? t) eqn:C; lia.
  - cbn [start_step]. destruct (_ && _); [|cbn [bind]; eapply IH; eassumption]. unfold start_reply, c_add64. replace (in_int64b _) with true by (unfold in_int64b, LLONG_MIN, LLONG_MAX, DELAY_START in *; lia).
    cbn [bind]. eapply IH; [eassumption|exact Hm|exact Ht].
Qed.
