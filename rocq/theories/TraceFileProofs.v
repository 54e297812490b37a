(** Proofs about the trace file (C75). *)
From Coq Require Import Arith.
From Verif Require Import Base Net NetSpec NetProofs Trace TraceFile TraceFileSpec.
Open Scope Z_scope.

Lemma to_mem_length big n v : length (to_mem big n v) = n.
Proof. unfold to_mem. destruct big; [rewrite rev_length|]; apply to_mem_le_length. Qed.
Lemma umem_to_mem big n v : umem big (to_mem big n v) = v mod 256 ^ Z.of_nat n.
Proof. unfold umem, to_mem. destruct big; [rewrite rev_involutive|]; apply from_to. Qed.
Lemma signed_mem big n v : (0 < n)%nat -> - 2 ^ (8 * Z.of_nat n - 1) <= v < 2 ^ (8 * Z.of_nat n - 1) -> to_signed (8 * Z.of_nat n) (umem big (to_mem big n v)) = v.
Proof.
  intros Hn H. rewrite umem_to_mem. change 256 with (2 ^ 8). rewrite <- Z.pow_mul_r by lia. apply signed_back; lia.
Qed.
Lemma unsigned_mem big n v : 0 <= v < 256 ^ Z.of_nat n -> umem big (to_mem big n v) = v.
Proof. intros H. rewrite umem_to_mem. apply Z.mod_small, H. Qed.

(** *** fread *)
Lemma take_app b s : take (length b) (b ++ s) = Some (b, s).
Proof.
  unfold take. rewrite app_length. replace (length b <=? length b + length s)%nat with true by (symmetry; apply Nat.leb_le; lia).
  rewrite firstn_app, Nat.sub_diag, firstn_all, skipn_app, Nat.sub_diag, skipn_all. cbn [firstn skipn app]. rewrite app_nil_r. reflexivity.
Qed.
Lemma take_mem big n v s : take n (to_mem big n v ++ s) = Some (to_mem big n v, s).
Proof. rewrite <- (to_mem_length big n v) at 1. apply take_app. Qed.
Lemma read_signed_mem big n v s : (0 < n)%nat -> - 2 ^ (8 * Z.of_nat n - 1) <= v < 2 ^ (8 * Z.of_nat n - 1) -> read_signed big n (to_mem big n v ++ s) = Some (v, s).
Proof. intros Hn H. unfold read_signed. rewrite take_mem, signed_mem by assumption. reflexivity. Qed.
Lemma read_unsigned_mem big n v s : 0 <= v < 256 ^ Z.of_nat n -> read_unsigned big n (to_mem big n v ++ s) = Some (v, s).
Proof. intros H. unfold read_unsigned. rewrite take_mem, unsigned_mem by assumption. reflexivity. Qed.

(** *** The header *)
Lemma read_chars_string l : forall room c s, (length l < room)%nat -> Forall (fun x => x <> 0) (c :: l) -> read_chars room c (l ++ 0 :: s) = Some (c :: l, s).
Proof.
  induction l as [|c' l IH]; intros room c s Hr H; inversion H as [|? ? Hc Hl]; subst; (destruct room as [|room]; [cbn in Hr; lia|]); cbn [read_chars app]; (destruct (Z.eqb_spec c 0); [contradiction|]).
  - destruct room as [|room]; cbn [read_chars]; reflexivity.
  - cbn [length] in Hr. rewrite IH; [reflexivity|lia|exact Hl].
Qed.
Lemma read_description_string l s : (length l <= 1023)%nat -> Forall (fun x => x <> 0) l -> read_description (l ++ 0 :: s) = Some (l, s).
Proof.
  intros Hl H. unfold read_description, BUFFER_SIZE. destruct l as [|c l]; cbn [app]; [reflexivity|]. apply read_chars_string; [cbn [length] in Hl; lia|exact H].
Qed.
Lemma read_write_object big o s : object_ok o -> read_object big (write_object big o ++ s) = Some (o, s).
Proof.
  intros (P & T & Ty & D & L). unfold read_object, write_object. rewrite <- !app_assoc. rewrite read_unsigned_mem by exact P. rewrite read_unsigned_mem by exact T. rewrite read_signed_mem; [|lia|exact Ty].
  cbn [app]. rewrite read_description_string; [destruct o; reflexivity|exact L|]. eapply Forall_impl; [|exact D]. cbn. tauto.
Qed.
Lemma read_write_objects big l s : Forall object_ok l -> read_objects big (length l) (flat_map (write_object big) l ++ s) = Some (l, s).
Proof.
  intros H. induction H as [|o l Ho H IH]; [reflexivity|]. cbn [length read_objects flat_map]. rewrite <- app_assoc, read_write_object by exact Ho. rewrite IH. reflexivity.
Qed.
(** On a little-endian host the first four bytes of a small size_t are the int. *)
Lemma first_half n : 0 <= n < 2 ^ 31 -> firstn 4 (to_mem false 8 n) = to_mem false 4 n.
Proof. intros _. reflexivity. Qed.
Lemma read_count n s : Z.of_nat n < 2 ^ 31 -> read_signed false 4 (firstn 4 (to_mem false 8 (Z.of_nat n)) ++ s) = Some (Z.of_nat n, s).
Proof. intros H. rewrite first_half by lia. apply read_signed_mem; [lia|]. change (8 * Z.of_nat 4 - 1) with 31. lia. Qed.
Lemma read_write_header start table s : int64_ok start -> (length table <= 1024)%nat -> Forall object_ok table ->
  read_header false (write_header false start table ++ s) = Some (start, table, s).
Proof.
  intros Hs Hl H. unfold read_header, write_header. rewrite <- !app_assoc. rewrite read_signed_mem; [|lia|exact Hs]. rewrite read_count by lia. replace (Z.of_nat (length table) <? 0) with false by lia. rewrite Nat2Z.id, read_write_objects by exact H. reflexivity.
Qed.

(** *** Blocks *)
Lemma split_concat (b : list (list Z)) : Forall (fun r => length r = 64%nat) b -> split_records (length b) (concat b) = b.
Proof.
  intros H. induction H as [|r b Hr H IH]; [reflexivity|]. cbn [length split_records concat]. unfold RECORD_SIZE in *. rewrite <- Hr at 1 2. rewrite firstn_app, Nat.sub_diag, firstn_all, skipn_app, Nat.sub_diag, skipn_all. cbn [firstn skipn app]. rewrite app_nil_r, IH. reflexivity.
Qed.
Lemma concat_length (b : list (list Z)) : Forall (fun r => length r = 64%nat) b -> length (concat b) = (length b * 64)%nat.
Proof. intros H. induction H as [|r b Hr H IH]; [reflexivity|]. cbn [concat length]. rewrite app_length, IH, Hr. lia. Qed.
Lemma block_length b : block_ok b -> length (write_block false b) = (4 + length b * 64)%nat.
Proof. intros (_ & H). unfold write_block. rewrite app_length, concat_length by exact H. reflexivity. Qed.
Lemma read_one b fuel s : block_ok b -> read_blocks false (S fuel) (write_block false b ++ s) = let (l, e) := read_blocks false fuel s in (b ++ l, e).
Proof.
  intros (Hl & H). unfold write_block. rewrite <- app_assoc. cbn [read_blocks]. rewrite read_count by lia. unfold TRACE_BUFFER_CAPACITY.
  replace (2048 <? Z.of_nat (length b)) with false by lia. replace (Z.of_nat (length b) <? 0) with false by lia. replace (Z.of_nat (length b) =? 0) with false by lia.
  rewrite Nat2Z.id. unfold RECORD_SIZE. rewrite <- concat_length by exact H. rewrite take_app, split_concat by exact H. reflexivity.
Qed.
Lemma read_all blocks : Forall block_ok blocks -> forall fuel, (length (flat_map (write_block false) blocks) < fuel)%nat -> read_blocks false fuel (flat_map (write_block false) blocks) = (concat blocks, EndOfFile).
Proof.
  intros H. induction H as [|b blocks Hb H IH]; intros fuel Hf; (destruct fuel as [|fuel]; [lia|]); [reflexivity|]. cbn [flat_map concat] in *. rewrite read_one by exact Hb. rewrite app_length, block_length in Hf by exact Hb. rewrite IH by lia. reflexivity.
Qed.
Lemma round_trip start table blocks : int64_ok start -> (length table <= 1024)%nat -> Forall object_ok table -> Forall block_ok blocks ->
  read_file false (write_file false start table blocks) = mkContents start table (concat blocks) EndOfFile.
Proof. intros Hs Hl Ht Hb. unfold read_file, write_file. rewrite read_write_header by assumption. rewrite read_all by (assumption || lia). reflexivity. Qed.

(** *** Truncated files *)
Lemma take_more n s b r e : take n s = Some (b, r) -> take n (s ++ e) = Some (b, r ++ e).
Proof.
  unfold take. destruct (Nat.leb_spec n (length s)) as [L|L]; [|discriminate]. intros E. injection E as <- <-. rewrite app_length. replace (n <=? length s + length e)%nat with true by (symmetry; apply Nat.leb_le; lia).
  rewrite firstn_app, skipn_app. replace (n - length s)%nat with 0%nat by lia. cbn [firstn skipn]. rewrite app_nil_r. reflexivity.
Qed.
Lemma take_length n s b r : take n s = Some (b, r) -> (length s = n + length r)%nat.
Proof. unfold take. destruct (Nat.leb_spec n (length s)) as [L|L]; [|discriminate]. intros E. assert (K : skipn n s = r) by congruence. rewrite <- K, skipn_length. lia. Qed.
Lemma read_signed_more big n s v r e : read_signed big n s = Some (v, r) -> read_signed big n (s ++ e) = Some (v, r ++ e).
Proof. unfold read_signed. destruct (take n s) as [(b, r')|] eqn:T; [|discriminate]. intros E. injection E as <- <-. rewrite (take_more _ _ _ _ _ T). reflexivity. Qed.
Lemma read_unsigned_more big n s v r e : read_unsigned big n s = Some (v, r) -> read_unsigned big n (s ++ e) = Some (v, r ++ e).
Proof. unfold read_unsigned. destruct (take n s) as [(b, r')|] eqn:T; [|discriminate]. intros E. injection E as <- <-. rewrite (take_more _ _ _ _ _ T). reflexivity. Qed.
Lemma read_chars_more e room : forall c s l r, read_chars room c s = Some (l, r) -> read_chars room c (s ++ e) = Some (l, r ++ e).
Proof.
  induction room as [|room IH]; intros c s l r E; cbn [read_chars] in *; [injection E as <- <-; reflexivity|]. destruct (c =? 0); [injection E as <- <-; reflexivity|]. destruct s as [|c' s]; [discriminate|]. cbn [app].
  destruct (read_chars room c' s) as [(l', r')|] eqn:R; [|discriminate]. injection E as <- <-. rewrite (IH _ _ _ _ R). reflexivity.
Qed.
Lemma read_object_more big s o r e : read_object big s = Some (o, r) -> read_object big (s ++ e) = Some (o, r ++ e).
Proof.
  unfold read_object. destruct (read_unsigned big 8 s) as [(p, s1)|] eqn:E1; [|discriminate]. rewrite (read_unsigned_more _ _ _ _ _ e E1). destruct (read_unsigned big 8 s1) as [(t, s2)|] eqn:E2; [|discriminate]. rewrite (read_unsigned_more _ _ _ _ _ e E2).
  destruct (read_signed big 4 s2) as [(ty, s3)|] eqn:E3; [|discriminate]. rewrite (read_signed_more _ _ _ _ _ e E3). unfold read_description. destruct s3 as [|c s3]; [discriminate|]. cbn [app]. destruct (read_chars (BUFFER_SIZE - 1) c s3) as [(d, s4)|] eqn:E4; [|discriminate]. rewrite (read_chars_more e _ _ _ _ _ E4).
  intros E. injection E as <- <-. reflexivity.
Qed.
Lemma read_objects_more big e n : forall s l r, read_objects big n s = Some (l, r) -> read_objects big n (s ++ e) = Some (l, r ++ e).
Proof.
  induction n as [|n IH]; intros s l r E; cbn [read_objects] in *; [injection E as <- <-; reflexivity|]. destruct (read_object big s) as [(o, s1)|] eqn:E1; [|discriminate]. rewrite (read_object_more _ _ _ _ e E1). destruct (read_objects big n s1) as [(l1, s2)|] eqn:E2; [|discriminate]. rewrite (IH _ _ _ E2). injection E as <- <-. reflexivity.
Qed.
Lemma read_header_more big s x r e : read_header big s = Some (x, r) -> read_header big (s ++ e) = Some (x, r ++ e).
Proof.
  unfold read_header. destruct (read_signed big 8 s) as [(st, s1)|] eqn:E1; [|discriminate]. rewrite (read_signed_more _ _ _ _ _ e E1). destruct (read_signed big 4 s1) as [(n, s2)|] eqn:E2; [|discriminate]. rewrite (read_signed_more _ _ _ _ _ e E2).
  destruct (n <? 0); [intros E; injection E as <- <-; reflexivity|]. destruct (read_objects big (Z.to_nat n) s2) as [(l, s3)|] eqn:E3; [|discriminate]. rewrite (read_objects_more _ e _ _ _ _ E3). intros E. injection E as <- <-. reflexivity.
Qed.

Lemma read_prefix blocks : Forall block_ok blocks -> forall fuel s e, s ++ e = flat_map (write_block false) blocks ->
  exists done rest, blocks = done ++ rest /\ fst (read_blocks false fuel s) = concat done /\ (snd (read_blocks false fuel s) = EndOfFile \/ snd (read_blocks false fuel s) = Exit 5).
Proof.
  intros H. induction H as [|b blocks Hb H IH]; intros fuel s e E.
  - apply app_eq_nil in E. destruct E as (-> & ->). exists [], []. destruct fuel; cbn; auto.
  - destruct fuel as [|fuel]; [exists [], (b :: blocks); cbn; auto|]. cbn [flat_map] in E.
    destruct (le_lt_dec (length (write_block false b)) (length s)) as [L|L].
    + assert (Es : exists s', s = write_block false b ++ s' /\ s' ++ e = flat_map (write_block false) blocks).
      { exists (skipn (length (write_block false b)) s). assert (K : firstn (length (write_block false b)) s = write_block false b).
        { apply (f_equal (firstn (length (write_block false b)))) in E. rewrite !firstn_app, Nat.sub_diag, firstn_all in E. cbn [firstn] in E. rewrite app_nil_r in E. replace (length (write_block false b) - length s)%nat with 0%nat in E by lia. cbn [firstn] in E. rewrite app_nil_r in E. exact E. }
        split; [rewrite <- K at 1; symmetry; apply firstn_skipn|]. rewrite <- (firstn_skipn (length (write_block false b)) s), K, <- app_assoc in E. apply app_inv_head in E. exact E. }
      destruct Es as (s' & -> & E'). rewrite read_one by exact Hb. destruct (IH fuel s' e E') as (d & r & -> & E1 & E2). destruct (read_blocks false fuel s') as [l en]. cbn [fst snd] in *. exists (b :: d), r. subst l. cbn [concat app]. auto.
    + exists [], (b :: blocks). cbn [app concat]. split; [reflexivity|]. cbn [read_blocks]. destruct (read_signed false 4 s) as [(n, s1)|] eqn:R; [|cbn; auto].
      assert (K : n = Z.of_nat (length b) /\ s1 ++ e = concat b ++ flat_map (write_block false) blocks).
      { pose proof (read_signed_more _ _ _ _ _ e R) as K. rewrite E in K. unfold write_block in K at 1. rewrite <- app_assoc in K. rewrite read_count in K by (destruct Hb; lia). injection K as <- <-. auto. }
      destruct K as (-> & K). destruct Hb as (Hl & Hr). unfold TRACE_BUFFER_CAPACITY. replace (2048 <? Z.of_nat (length b)) with false by lia. replace (Z.of_nat (length b) <? 0) with false by lia. replace (Z.of_nat (length b) =? 0) with false by lia.
      assert (Ls : (length s1 + 4 = length s)%nat). { unfold read_signed in R. destruct (take 4 s) as [(bb, rr)|] eqn:T; [|discriminate]. apply take_length in T. assert (rr = s1) by congruence. subst rr. lia. }
      rewrite Nat2Z.id. unfold take. replace (length b * RECORD_SIZE <=? length s1)%nat with false; [cbn; auto|]. symmetry. apply Nat.leb_gt. unfold RECORD_SIZE. rewrite block_length in L by (split; assumption). lia.
Qed.
Lemma truncated start table blocks n : int64_ok start -> (length table <= 1024)%nat -> Forall object_ok table -> Forall block_ok blocks ->
  let c := read_file false (firstn n (write_file false start table blocks)) in
  (c = mkContents 0 [] [] (Exit 1)) \/
  (c_start c = start /\ c_table c = table /\ (exists done rest, blocks = done ++ rest /\ c_records c = concat done) /\ (c_end c = EndOfFile \/ c_end c = Exit 5)).
Proof.
  intros Hs Hl Ht Hb. cbn zeta. unfold read_file. destruct (read_header false (firstn n (write_file false start table blocks))) as [(x, r)|] eqn:E; [right|left; reflexivity].
  pose proof (read_header_more _ _ _ _ (skipn n (write_file false start table blocks)) E) as K. rewrite firstn_skipn in K. unfold write_file in K. rewrite read_write_header in K by assumption. injection K as <- K. symmetry in K.
  destruct (read_prefix blocks Hb (S (length r)) r _ K) as (d & rest & -> & E1 & E2). destruct (read_blocks false (S (length r)) r) as [l en]. cbn [fst snd c_start c_table c_records c_end] in *. subst l. split; [reflexivity|]. split; [reflexivity|]. split; [eauto|exact E2].
Qed.

(** *** Records *)
Lemma image_length big r p1 p2 : padding p1 -> padding p2 -> length (image big r p1 p2) = 64%nat.
Proof. intros (H1 & _) (H2 & _). unfold image. rewrite !app_length, !to_mem_length, H1, H2. reflexivity. Qed.
Lemma skip_app {A} (a b : list A) n : (length a <= n)%nat -> skipn n (a ++ b) = skipn (n - length a) b.
Proof. intros H. rewrite skipn_app. rewrite skipn_all2 by exact H. reflexivity. Qed.
Lemma first_app {A} (a b : list A) : firstn (length a) (a ++ b) = a.
Proof. rewrite firstn_app, Nat.sub_diag, firstn_all. cbn [firstn]. apply app_nil_r. Qed.
Lemma first_mem big n v s : firstn n (to_mem big n v ++ s) = to_mem big n v.
Proof. rewrite <- (to_mem_length big n v) at 1. apply first_app. Qed.
Lemma fields_image big r p1 p2 : entry_ok r -> padding p1 -> padding p2 -> fields big (image big r p1 p2) = r.
Proof.
  intros (R1 & R2 & R3 & R4 & R5 & R6 & R7 & R8 & R9) (P1 & _) (P2 & _). destruct r as [ev po sr ds lo mi ph tr ex]. cbn in R1, R2, R3, R4, R5, R6, R7, R8, R9. unfold fields, sfield, ufield, image. cbn [event_type pointer src_id dst_id logical_time microstep physical_time trigger extra_delay].
  f_equal.
  all: repeat (rewrite skip_app by (rewrite ?to_mem_length, ?P1, ?P2; lia); rewrite ?to_mem_length, ?P1, ?P2; cbn [Nat.sub]); cbn [skipn].
  all: rewrite ?first_mem.
  all: try (apply signed_mem; [lia|assumption]); try (apply unsigned_mem; assumption).
  rewrite <- (app_nil_r (to_mem big 8 ex)), first_mem. apply signed_mem; [lia|assumption].
Qed.
