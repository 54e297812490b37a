From Verif Require Import Base WaveFile WaveFileSpec.
Local Open Scope Z_scope.

Lemma le_bytes_length n x : length (le_bytes n x) = n.
Proof. revert x. induction n as [|n IH]; intros x; [reflexivity|]. cbn [le_bytes length]. rewrite IH. reflexivity. Qed.
Lemma le_le_bytes n x : le (le_bytes n x) = x mod 256 ^ Z.of_nat n.
Proof.
  revert x. induction n as [|n IH]; intros x; [cbn; rewrite Z.mod_1_r; reflexivity|].
  cbn [le_bytes]. unfold le. cbn [fold_right]. fold (le (le_bytes n (x / 256))). rewrite IH, Nat2Z.inj_succ, Z.pow_succ_r by lia.
  rewrite Z.rem_mul_r; [reflexivity|lia|]. apply Z.pow_pos_nonneg; lia.
Qed.
Lemma le4 x : 0 <= x < 4294967296 -> le (le_bytes 4 x) = x.
Proof. intros H. rewrite le_le_bytes. apply Z.mod_small. exact H. Qed.
Lemma same_refl a : same a a = true.
Proof. induction a as [|x a IH]; [reflexivity|]. cbn [same]. rewrite Z.eqb_refl, IH. reflexivity. Qed.
Lemma same_eq a b : same a b = true -> a = b.
Proof.
  revert b. induction a as [|x a IH]; intros [|y b] H; try discriminate; [reflexivity|]. cbn [same] in H. apply andb_prop in H as [A B].
  apply Z.eqb_eq in A as ->. rewrite (IH b B). reflexivity.
Qed.
Lemma same_neq a b : a <> b -> same a b = false.
Proof. intros N. destruct (same a b) eqn:E; [apply same_eq in E; contradiction|reflexivity]. Qed.

(** ** Reading what was written *)
Lemma chunk_first id body x : length id = 4%nat -> firstn 8 (chunk id body ++ x) = id ++ le_bytes 4 (Z.of_nat (length body)).
Proof. intros L. destruct id as [|a [|b [|c [|d [|]]]]]; try discriminate. reflexivity. Qed.
Lemma chunk_rest id body x : length id = 4%nat -> Z.odd (Z.of_nat (length body)) = false -> skipn 8 (chunk id body ++ x) = body ++ x.
Proof. intros L O. unfold chunk. rewrite O, app_nil_r. destruct id as [|a [|b [|c [|d [|]]]]]; try discriminate. reflexivity. Qed.
Lemma four_app id (x : list Z) : length id = 4%nat -> firstn 4 (id ++ x) = id /\ skipn 4 (id ++ x) = x.
Proof. intros L. destruct id as [|a [|b [|c [|d [|]]]]]; try discriminate. split; reflexivity. Qed.
Lemma skipn_exact {A} (a b : list A) n : n = length a -> skipn n (a ++ b) = b.
Proof. intros ->. rewrite skipn_app, skipn_all, Nat.sub_diag. reflexivity. Qed.

Lemma find_chunks stack body tail : Z.odd (Z.of_nat (length body)) = false -> forall others fuel, Forall (skippable stack) others -> (length others < fuel)%nat ->
  let rest := flat_map (fun c => chunk (fst c) (snd c)) others ++ chunk DATA body ++ tail in
  find_data fuel stack (firstn 8 rest) (skipn 8 rest) = inl (DATA ++ le_bytes 4 (Z.of_nat (length body)), body ++ tail).
Proof.
  intros OB. induction others as [|[id b] others IH]; intros fuel F L; (destruct fuel as [|fuel]; [cbn [length] in L; lia|]); cbv zeta; cbn [flat_map fst snd app].
  - rewrite chunk_first, chunk_rest by (reflexivity || exact OB). reflexivity.
  - inversion F as [|? ? SK F1]; subst. destruct SK as (L4 & ND & SZ & SM & OD). cbn [fst snd] in *.
    rewrite <- app_assoc. rewrite chunk_first, chunk_rest by assumption. cbn [find_data].
    destruct (four_app id (le_bytes 4 (Z.of_nat (length b))) L4) as [-> ->]. rewrite (same_neq _ _ ND), le4 by lia.
    replace (Z.of_nat (length b) =? 0) with false by (symmetry; apply Z.eqb_neq; lia).
    replace (stack <? Z.of_nat (length b)) with false by (symmetry; apply Z.ltb_ge; lia).
    set (X := flat_map (fun c => chunk (fst c) (snd c)) others ++ chunk DATA body ++ tail).
    replace (Z.of_nat (length (b ++ X)) <? Z.of_nat (length b)) with false by (symmetry; apply Z.ltb_ge; rewrite app_length; lia).
    rewrite (skipn_exact b X) by (rewrite Nat2Z.id; reflexivity).
    assert (L8 : length (firstn 8 X) = 8%nat).
    { rewrite firstn_length_le; [reflexivity|]. unfold X. rewrite !app_length. assert (8 <= length (chunk DATA body))%nat; [|lia].
      unfold chunk. rewrite !app_length, le_bytes_length. cbn [DATA length]. lia. }
    rewrite L8. cbn [Nat.ltb Nat.leb]. apply IH; [exact F1|cbn [length] in L; lia].
Qed.
Lemma sample_bytes_length s : length (sample_bytes s) = (2 * length s)%nat.
Proof. induction s as [|x s IH]; [reflexivity|]. cbn [sample_bytes flat_map]. rewrite app_length, le_bytes_length. fold (sample_bytes s). rewrite IH. cbn [length]. lia. Qed.
Lemma int16_back x : is_sample x -> int16 (x mod 65536 mod 256 + 256 * (x mod 65536 / 256 mod 256)) = x.
Proof.
  intros H. unfold is_sample in H.
  assert (E : x mod 65536 mod 256 + 256 * (x mod 65536 / 256 mod 256) = x mod 65536).
  { pose proof (Z.mod_pos_bound x 65536 ltac:(lia)). rewrite (Z.mod_small (x mod 65536 / 256) 256); [pose proof (Z.div_mod (x mod 65536) 256 ltac:(lia)); lia|].
    split; [apply Z.div_pos; lia|apply Z.div_lt_upper_bound; lia]. }
  rewrite E. unfold int16. destruct (Z.ltb_spec x 0) as [N|N].
  - replace (x mod 65536) with (x + 65536).
    + destruct (Z.ltb_spec (x + 65536) 32768); lia.
    + rewrite <- (Z.mod_add x 1 65536) by lia. rewrite Z.mod_small; lia.
  - rewrite Z.mod_small by lia. destruct (Z.ltb_spec x 32768); lia.
Qed.
Lemma samples_back s tail : Forall is_sample s -> samples (length s) (sample_bytes s ++ tail) = map Some s.
Proof.
  induction s as [|x s IH]; intros F; [reflexivity|]. inversion F as [|? ? F1 F2]; subst.
  change (sample_bytes (x :: s) ++ tail) with (x mod 65536 mod 256 :: x mod 65536 / 256 mod 256 :: (sample_bytes s ++ tail)).
  cbn [length samples map]. rewrite int16_back by exact F1. f_equal. apply IH, F2.
Qed.
Lemma roundtrip stack mem total channels rate align others s tail :
  0 <= channels < 65536 -> Forall (skippable stack) others -> Forall is_sample s -> 2 * Z.of_nat (length s) < 4294967296 -> 2 * Z.of_nat (length s) <= mem ->
  read_wave stack mem (wave_file total channels rate align others s tail) = Wave (mkWave (Z.of_nat (length s)) channels (map Some s) false).
Proof.
  intros HC HO HS HN HM. set (f := wave_file total channels rate align others s tail).
  set (rest := flat_map (fun c => chunk (fst c) (snd c)) others ++ chunk DATA (sample_bytes s) ++ tail).
  assert (OB : Z.odd (Z.of_nat (length (sample_bytes s))) = false).
  { rewrite sample_bytes_length, Nat2Z.inj_mul. change (Z.of_nat 2) with 2. rewrite Z.odd_mul. reflexivity. }
  assert (L8 : (8 <= length rest)%nat).
  { unfold rest, chunk at 2. rewrite !app_length, le_bytes_length. cbn [DATA length]. lia. }
  assert (LO : (length others <= length rest)%nat).
  { unfold rest. rewrite app_length. assert (length others <= length (flat_map (fun c => chunk (fst c) (snd c)) others))%nat; [|lia].
    clear. induction others as [|c others IH]; [cbn; lia|]. cbn [flat_map length]. rewrite app_length. unfold chunk at 1. rewrite !app_length, le_bytes_length. lia. }
  assert (LF : length f = (36 + length rest)%nat) by reflexivity.
  unfold read_wave. rewrite LF. replace (36 + length rest <? 44)%nat with false by (symmetry; apply Nat.ltb_ge; lia).
  change (sub f 36 8) with (firstn 8 rest). change (skipn 44 f) with (skipn 8 rest).
  unfold rest at 2 3. rewrite find_chunks; [|exact OB|exact HO|lia].
  destruct (four_app DATA (le_bytes 4 (Z.of_nat (length (sample_bytes s)))) eq_refl) as [_ ->].
  rewrite le4 by (rewrite sample_bytes_length; lia). rewrite sample_bytes_length.
  replace (Z.of_nat (2 * length s) / 2) with (Z.of_nat (length s)) by (rewrite Nat2Z.inj_mul, Z.mul_comm, Z.div_mul; lia).
  destruct (Z.ltb_spec mem (2 * Z.of_nat (length s))); [lia|]. rewrite Nat2Z.id, samples_back by exact HS.
  replace (le (sub f 22 2)) with channels; [|change (sub f 22 2) with (le_bytes 2 channels); rewrite le_le_bytes, Z.mod_small; [reflexivity|exact HC]].
  assert (SU : supported f = true) by reflexivity. rewrite SU. reflexivity.
Qed.

(** ** Any file *)
Lemma le_nonneg l : Forall byte l -> 0 <= le l.
Proof. induction 1 as [|b l B F IH]; [cbn; lia|]. unfold le in *. cbn [fold_right]. unfold byte in B. lia. Qed.
Lemma find_fuel stack : forall fuel h r, (length r < fuel)%nat -> find_data fuel stack h r <> inr Fuel.
Proof.
  induction fuel as [|fuel IH]; intros h r L; [lia|]. cbn [find_data].
  destruct (same _ _); [discriminate|]. destruct (_ =? 0); [discriminate|]. destruct (stack <? _); [discriminate|]. destruct (_ <? le _); [discriminate|].
  set (r' := skipn _ r). destruct (Nat.ltb_spec (length (firstn 8 r')) 8) as [|G]; [discriminate|]. apply IH.
  rewrite firstn_length in G. assert (length r' <= length r)%nat by (unfold r'; rewrite skipn_length; lia). rewrite skipn_length. lia.
Qed.
Lemma ends stack mem f : read_wave stack mem f <> Fuel.
Proof.
  unfold read_wave. destruct (Nat.ltb_spec (length f) 44); [discriminate|].
  pose proof (find_fuel stack (S (length f)) (sub f 36 8) (skipn 44 f)) as X. rewrite skipn_length in X. specialize (X ltac:(lia)).
  destruct (find_data _ _ _ _) as [[h r]|x]; [destruct (_ <? _); discriminate|congruence].
Qed.
Lemma samples_length n l : length (samples n l) = n.
Proof. revert l. induction n as [|n IH]; intros l; [reflexivity|]. destruct l as [|a [|b l]]; cbn [samples length]; rewrite ?repeat_length, ?IH; reflexivity. Qed.
Lemma find_bytes stack : forall fuel h r h' r', Forall byte h -> Forall byte r -> find_data fuel stack h r = inl (h', r') -> Forall byte h'.
Proof.
  induction fuel as [|fuel IH]; intros h r h' r' Bh Br E; [discriminate|]. cbn [find_data] in E.
  destruct (same _ _); [injection E as <- <-; exact Bh|]. destruct (_ =? 0); [discriminate|]. destruct (stack <? _); [discriminate|].
  destruct (_ <? le _); [injection E as <- <-; exact Bh|]. set (q := skipn _ r) in *.
  assert (Bq : Forall byte q) by (unfold q; apply Forall_forall; intros x X; rewrite Forall_forall in Br; apply Br; rewrite <- (firstn_skipn (Z.to_nat (le (skipn 4 h))) r); apply in_or_app; right; exact X).
  assert (B8 : Forall byte (firstn 8 q)) by (apply Forall_forall; intros x X; rewrite Forall_forall in Bq; apply Bq; rewrite <- (firstn_skipn 8 q); apply in_or_app; left; exact X).
  destruct (_ <? 8)%nat.
  - injection E as <- <-. apply Forall_app. split; [exact B8|]. apply Forall_forall. intros x X. rewrite Forall_forall in Bh. apply Bh.
    rewrite <- (firstn_skipn (length (firstn 8 q)) h). apply in_or_app. right. exact X.
  - refine (IH _ _ h' r' B8 _ E). apply Forall_forall. intros x X. rewrite Forall_forall in Bq. apply Bq. rewrite <- (firstn_skipn 8 q). apply in_or_app. right. exact X.
Qed.
Lemma Forall_sub (P : Z -> Prop) l o n : Forall P l -> Forall P (sub l o n).
Proof.
  intros F. apply Forall_forall. intros x X. rewrite Forall_forall in F. apply F. rewrite <- (firstn_skipn o l). apply in_or_app. right.
  rewrite <- (firstn_skipn n (skipn o l)). apply in_or_app. left. exact X.
Qed.
Lemma fits stack mem f w : Forall byte f -> read_wave stack mem f = Wave w -> Z.of_nat (length (w_samples w)) = w_length w.
Proof.
  intros B. unfold read_wave. destruct (_ <? 44)%nat; [discriminate|]. destruct (find_data _ _ _ _) as [[h r]|x] eqn:E.
  - destruct (_ <? _); [discriminate|]. intros [= <-]. cbn [w_samples w_length]. rewrite samples_length, Z2Nat.id; [reflexivity|].
    apply Z.div_pos; [|lia]. apply le_nonneg. 
    assert (Bh : Forall byte h).
    { apply (find_bytes stack _ _ _ h r (Forall_sub byte f 36 8 B)) in E; [exact E|]. apply Forall_forall. intros y Y. rewrite Forall_forall in B. apply B. rewrite <- (firstn_skipn 44 f). apply in_or_app. right. exact Y. }
    apply Forall_forall. intros y Y. rewrite Forall_forall in Bh. apply Bh. rewrite <- (firstn_skipn 4 h). apply in_or_app. right. exact Y.
  - intros X. exfalso. revert X E. clear. intros -> E. revert E. generalize (S (length f)), (sub f 36 8), (skipn 44 f).
    induction n as [|n IH]; intros h r E; [discriminate|]. cbn [find_data] in E.
    destruct (same _ _); [discriminate|]. destruct (_ =? 0); [discriminate|]. destruct (stack <? _); [discriminate|]. destruct (_ <? le _); [discriminate|].
    destruct (_ <? 8)%nat; [discriminate|]. exact (IH _ _ E).
Qed.
Lemma never_null stack mem f : read_wave stack mem f <> NoFile.
Proof.
  unfold read_wave. destruct (_ <? 44)%nat; [discriminate|].
  assert (X : forall n h r, find_data n stack h r <> inr NoFile).
  { induction n as [|n IH]; intros h r; [discriminate|]. cbn [find_data].
    destruct (same _ _); [discriminate|]. destruct (_ =? 0); [discriminate|]. destruct (stack <? _); [discriminate|]. destruct (_ <? le _); [discriminate|].
    destruct (_ <? 8)%nat; [discriminate|]. apply IH. }
  specialize (X (S (length f)) (sub f 36 8) (skipn 44 f)). destruct (find_data _ _ _ _) as [[h r]|x]; [destruct (_ <? _); discriminate|congruence].
Qed.
Lemma limit_reached stack mem limit : forall fs opened k, (opened <= limit)%nat -> (limit - opened <= k)%nat -> (k < length fs)%nat -> nth_error (read_all stack mem limit opened fs) k = Some NoFile.
Proof.
  induction fs as [|f fs IH]; intros o k LO LK L; [cbn in L; lia|]. cbn [read_all]. cbn [length] in L.
  destruct (Nat.ltb_spec o limit) as [A|A].
  - destruct k as [|k]; [lia|]. cbn [nth_error]. apply IH; lia.
  - destruct k as [|k]; [reflexivity|]. cbn [nth_error]. apply IH; lia.
Qed.
