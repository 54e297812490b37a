From Verif Require Import Base Audio AudioSpec.
Open Scope Z_scope.
Local Open Scope list_scope.

(** * Amplitudes *)
Lemma mixed_bounded e b v : bounded (mixed e b v).
Proof. unfold bounded, mixed, MAX_AMPLITUDE. lia. Qed.
Lemma clip_mixed s : clip s = Z.max (- MAX_AMPLITUDE) (Z.min MAX_AMPLITUDE s).
Proof. assert (P : 0 < MAX_AMPLITUDE) by reflexivity. unfold clip. destruct (Z.ltb_spec MAX_AMPLITUDE s); [lia|]. destruct (Z.ltb_spec s (- MAX_AMPLITUDE)); lia. Qed.
Lemma quot_bound x d k : 0 < d -> Z.abs x <= k * d -> Z.abs (Z.quot x d) <= k.
Proof.
  intros D H. assert (P : forall y, 0 <= y -> y <= k * d -> 0 <= Z.quot y d <= k).
  { intros y Y1 Y2. rewrite Z.quot_div_nonneg by lia. split; [apply Z.div_pos; lia|apply Z.div_le_upper_bound; lia]. }
  destruct (Z.le_gt_cases 0 x) as [X|X]; [specialize (P x X ltac:(lia)); lia|].
  specialize (P (- x) ltac:(lia) ltac:(lia)). rewrite Z.quot_opp_l in P by lia. lia.
Qed.
Lemma add_ok e b v : modest e -> bounded b -> Z.abs v <= 32768 -> add_to_sound b v e = Ok (mixed e b v).
Proof.
  intros M B V. unfold add_to_sound, mixed. rewrite clip_mixed. unfold modest in M. unfold bounded, MAX_AMPLITUDE in B.
  assert (Q : Z.abs (Z.quot (b * Zpos (snd e) + v * fst e) (Zpos (snd e))) <= 1966112768) by (apply quot_bound; [lia|nia]).
  assert (I : in_int (Z.quot (b * Zpos (snd e) + v * fst e) (Zpos (snd e))) = true) by (unfold in_int; change (2 ^ 31) with 2147483648; lia).
  cbv zeta. rewrite I. reflexivity.
Qed.
Lemma mixed_zero e b v : fst e = 0 -> bounded b -> mixed e b v = b.
Proof.
  intros H B. unfold mixed. rewrite H, Z.mul_0_r, Z.add_0_r, Z.quot_mul by lia. unfold bounded in B. lia.
Qed.

(** * Overlays *)
Lemma overlay_nil e buf : overlay e buf [] = buf.
Proof. now destruct buf. Qed.
Lemma overlay_length e : forall buf vs, length (overlay e buf vs) = length buf.
Proof. induction buf as [|b buf IH]; intros [|v vs]; cbn [overlay length]; auto. Qed.
Lemma overlay_bounded e : forall buf vs, Forall bounded buf -> Forall bounded (overlay e buf vs).
Proof. induction buf as [|b buf IH]; intros [|v vs] H; cbn [overlay]; auto. inversion H; subst. constructor; [apply mixed_bounded|auto]. Qed.
Lemma overlay_zero e : fst e = 0 -> forall buf vs, Forall bounded buf -> overlay e buf vs = buf.
Proof. intros Z0. induction buf as [|b buf IH]; intros [|v vs] H; cbn [overlay]; auto. inversion H; subst. f_equal; [now apply mixed_zero|auto]. Qed.
Lemma overlay_one e v : forall buf i, (i < length buf)%nat -> firstn i buf ++ overlay e (skipn i buf) [v] = set_nth i (mixed e (nth i buf 0) v) buf.
Proof.
  induction buf as [|b buf IH]; intros [|i] H; cbn [length] in H; [lia|lia| |].
  - cbn [firstn skipn app overlay set_nth nth]. now rewrite overlay_nil.
  - cbn [firstn skipn app set_nth nth]. f_equal. apply IH. lia.
Qed.

(** * Frames *)
Definition m_of (w : waveform) : nat := Nat.max 1 (count w - 1).
Lemma count_spec w : whole w -> (1 <= count w)%nat /\ Z.of_nat (count w) * w_channels w = w_length w.
Proof.
  intros (C & L & P & D & _). destruct D as [n D]. unfold count. rewrite D, Z.div_mul by lia. assert (0 < n) by nia. split; [lia|]. rewrite Z2Nat.id by lia. reflexivity.
Qed.
Lemma m_of_le w : whole w -> (1 <= m_of w <= count w)%nat.
Proof. intros W. destruct (count_spec w W) as [A _]. unfold m_of. lia. Qed.
Lemma heard_map w : whole w -> heard w = map (average w) (seq 0 (m_of w)).
Proof.
  intros W. pose proof (m_of_le w W) as M. unfold heard, frames. fold (m_of w). rewrite firstn_map. f_equal.
  replace (count w) with (m_of w + (count w - m_of w))%nat by lia. rewrite seq_app, firstn_app, seq_length, Nat.sub_diag. cbn [firstn]. rewrite app_nil_r.
  rewrite <- (seq_length (m_of w) 0) at 1. apply firstn_all.
Qed.
Lemma skipn_seq j m : (j <= m)%nat -> skipn j (seq 0 m) = seq j (m - j).
Proof.
  intros H. replace m with (j + (m - j))%nat at 1 by lia. rewrite seq_app, skipn_app, seq_length, Nat.sub_diag. cbn [skipn Nat.add].
  rewrite <- (seq_length j 0) at 1. rewrite skipn_all. reflexivity.
Qed.
Lemma skipn_map' {A B} (f : A -> B) : forall n l, skipn n (map f l) = map f (skipn n l).
Proof. induction n as [|n IH]; intros [|x l]; cbn [skipn map]; auto. Qed.
Lemma heard_skip w j : whole w -> (j < m_of w)%nat -> skipn j (heard w) = average w j :: skipn (S j) (heard w).
Proof.
  intros W H. rewrite (heard_map w W), !skipn_map', !skipn_seq by lia. replace (m_of w - j)%nat with (S (m_of w - S j)) by lia. reflexivity.
Qed.
Lemma heard_length w : whole w -> length (heard w) = m_of w.
Proof. intros W. now rewrite (heard_map w W), map_length, seq_length. Qed.
Lemma sum_bound l : Forall (fun x => -32768 <= x <= 32767) l -> Z.abs (fold_right Z.add 0 l) <= 32768 * Z.of_nat (length l).
Proof. induction 1 as [|x l X _ IH]; cbn [fold_right length]; [lia|]. rewrite Nat2Z.inj_succ. lia. Qed.
Lemma firstn_forall {A} (P : A -> Prop) n l : Forall P l -> Forall P (firstn n l).
Proof. rewrite !Forall_forall. intros H x X. apply H. rewrite <- (firstn_skipn n l). apply in_or_app. now left. Qed.
Lemma skipn_forall {A} (P : A -> Prop) n l : Forall P l -> Forall P (skipn n l).
Proof. rewrite !Forall_forall. intros H x X. apply H. rewrite <- (firstn_skipn n l). apply in_or_app. now right. Qed.
Lemma frame_ok w j : whole w -> (j < count w)%nat -> frame w (Z.of_nat j * w_channels w) = Ok (average w j) /\ Z.abs (average w j) <= 32768.
Proof.
  intros W J. destruct (count_spec w W) as [C1 C2]. destruct W as (C & L & P & D & S1).
  assert (N : Z.to_nat (Z.of_nat j * w_channels w) = (j * Z.to_nat (w_channels w))%nat) by (rewrite Z2Nat.inj_mul, Nat2Z.id by lia; reflexivity).
  assert (Le : length (firstn (Z.to_nat (w_channels w)) (skipn (j * Z.to_nat (w_channels w)) (w_samples w))) = Z.to_nat (w_channels w)).
  { rewrite firstn_length, skipn_length. apply Nat.min_l. apply Nat2Z.inj_le. rewrite Nat2Z.inj_sub by (apply Nat2Z.inj_le; rewrite Nat2Z.inj_mul; nia). rewrite Nat2Z.inj_mul, Z2Nat.id by lia. nia. }
  split.
  - unfold frame. replace (w_channels w =? 0) with false by lia. cbv zeta. rewrite N, Le, Z2Nat.id, Z.eqb_refl by lia. reflexivity.
  - unfold average. cbv zeta. apply quot_bound; [lia|]. etransitivity; [apply sum_bound; apply firstn_forall, skipn_forall; exact S1|]. rewrite Le. lia.
Qed.

(** * Filling a buffer *)
Lemma fill_ok w e : whole w -> modest e -> forall buf j, Forall bounded buf -> (j < m_of w)%nat ->
  fill w e buf (Z.of_nat j * w_channels w) = Ok (overlay e buf (skipn j (heard w)),
    if Nat.ltb (j + length buf) (m_of w) then Some (Z.of_nat (j + length buf) * w_channels w) else None).
Proof.
  intros W M. pose proof (count_spec w W) as [C1 C2]. pose proof (m_of_le w W) as ML. pose proof W as (C & L & P & _).
  induction buf as [|b buf IH]; intros j B J; cbn [fill length].
  - rewrite Nat.add_0_r. destruct (Nat.ltb_spec j (m_of w)); [|lia]. reflexivity.
  - inversion B as [|? ? B1 B2]; subst. destruct (frame_ok w j W ltac:(lia)) as [F1 F2]. rewrite F1, (add_ok e b _ M B1 F2).
    rewrite (heard_skip w j W J). cbn [overlay]. cbv zeta.
    replace (Z.of_nat j * w_channels w + w_channels w) with (Z.of_nat (S j) * w_channels w) by (rewrite Nat2Z.inj_succ; lia).
    assert (X : Z.of_nat (S j) * w_channels w <= w_length w) by (rewrite <- C2; apply Z.mul_le_mono_nonneg_r; lia).
    destruct (Z.leb_spec (2 ^ 31) (Z.of_nat (S j) * w_channels w)); [lia|].
    assert (Y : w_length w - w_channels w = Z.of_nat (count w - 1) * w_channels w) by (rewrite Nat2Z.inj_sub by lia; lia).
    rewrite Z.mod_small by (change (2 ^ 32) with 4294967296; change (2 ^ 31) with 2147483648 in *; nia). rewrite Y.
    destruct (Z.leb_spec (Z.of_nat (count w - 1) * w_channels w) (Z.of_nat (S j) * w_channels w)) as [Q|Q].
    + assert (m_of w = S j) by (unfold m_of in *; assert (Z.of_nat (count w - 1) <= Z.of_nat (S j)) by nia; lia).
      rewrite (skipn_all2 (heard w)) by (rewrite (heard_length w W); lia). rewrite overlay_nil.
      destruct (Nat.ltb_spec (j + S (length buf)) (m_of w)); [lia|]. reflexivity.
    + assert (S j < m_of w)%nat by (unfold m_of; assert (Z.of_nat (S j) < Z.of_nat (count w - 1)) by nia; lia).
      rewrite (IH (S j) B2) by assumption. rewrite Nat.add_succ_r. cbn [Nat.add]. reflexivity.
Qed.

(** * The notes *)
Definition mute (n : note) : Prop := n_wave n = None \/ fst (n_vol n) = 0.
Definition rel (n : note) (s : volume * list Z) : Prop :=
  (mute n /\ (snd s = [] \/ fst (fst s) = 0)) \/
  exists w j, whole w /\ modest (fst s) /\ n = mkNote (Some w) (Z.of_nat j * w_channels w) (fst s) /\ (j < m_of w)%nat /\ snd s = skipn j (heard w).
Definition level (b : list Z) (s : volume * list Z) : list Z := overlay (fst s) b (snd s).
Lemma skipn_skipn' {A} i : forall j (l : list A), skipn i (skipn j l) = skipn (j + i) l.
Proof. induction j as [|j IH]; intros l; [reflexivity|]. destruct l as [|x l]; cbn [skipn Nat.add]; [now rewrite skipn_nil|]. apply IH. Qed.
Lemma fold_overlay_zero slots : forall buf, Forall bounded buf -> Forall (fun s : volume * list Z => snd s = [] \/ fst (fst s) = 0) slots -> fold_left level slots buf = buf.
Proof.
  induction slots as [|s slots IH]; intros buf B F; cbn [fold_left]; [reflexivity|]. inversion F as [|? ? F1 F2]; subst.
  assert (Q : level buf s = buf) by (unfold level; destruct F1 as [-> | Z0]; [apply overlay_nil|now apply overlay_zero]). rewrite Q. auto.
Qed.
Lemma after_fill w e j len : whole w -> modest e -> (j < m_of w)%nat ->
  rel (match (if Nat.ltb (j + len) (m_of w) then Some (Z.of_nat (j + len) * w_channels w) else None) with Some p => mkNote (Some w) p e | None => no_note end)
    (e, skipn (j + len) (heard w)).
Proof.
  intros W M J. destruct (Nat.ltb_spec (j + len) (m_of w)) as [L|L].
  - right. exists w, (j + len)%nat. auto.
  - left. split; [left; reflexivity|]. left. cbn [snd]. apply skipn_all2. rewrite (heard_length w W). lia.
Qed.
Lemma trail_ok notes slots : Forall2 rel notes slots -> forall buf, Forall bounded buf ->
  exists ns, trail notes buf = Ok (ns, fold_left level slots buf) /\ Forall2 rel ns (map (fun s => (fst s, skipn (length buf) (snd s))) slots).
Proof.
  induction 1 as [|n s notes slots R _ IH]; intros buf B; [exists []; split; [reflexivity|constructor]|]. cbn [trail fold_left map].
  destruct R as [[Mu Z0]|(w & j & W & M & -> & J & V)].
  - assert (Q : level buf s = buf) by (unfold level; destruct Z0 as [-> | Z0]; [apply overlay_nil|now apply overlay_zero]).
    rewrite Q. destruct (IH buf B) as (ns & A & F). exists (n :: ns). split.
    + destruct (n_wave n) as [w|] eqn:Wn; [|now rewrite A]. destruct Mu as [Mu|Mu]; [congruence|]. rewrite Mu, Z.eqb_refl, A. reflexivity.
    + constructor; [|exact F]. left. split; [exact Mu|]. cbn [fst snd]. destruct Z0 as [-> | Z0]; [left; apply skipn_nil|now right].
  - cbn [n_wave n_vol n_pos]. destruct s as [e vs]. cbn [fst snd] in *. subst vs. destruct (Z.eqb_spec (fst e) 0) as [E0|E0].
    + unfold level at 2. cbn [fst snd]. rewrite overlay_zero by assumption. destruct (IH buf B) as (ns & A & F). rewrite A.
      eexists. split; [reflexivity|]. constructor; [|exact F]. left. split; [right; exact E0|now right].
    + rewrite (fill_ok w e W M buf j B J). unfold level at 2. cbn [fst snd].
      destruct (IH (overlay e buf (skipn j (heard w))) (overlay_bounded _ _ _ B)) as (ns & A & F). rewrite A. eexists. split; [reflexivity|].
      rewrite overlay_length in F. constructor; [|exact F]. rewrite skipn_skipn'. now apply after_fill.
Qed.
Lemma fold_level_inv slots : forall buf, Forall bounded buf -> Forall bounded (fold_left level slots buf) /\ length (fold_left level slots buf) = length buf.
Proof.
  induction slots as [|s slots IH]; intros buf B; cbn [fold_left]; [auto|]. destruct (IH (level buf s) (overlay_bounded _ _ _ B)) as [X Y]. split; [exact X|].
  rewrite Y. apply overlay_length.
Qed.

(** * Histories *)
Definition sim (s : state) (a : player) : Prop :=
  s_ready s = true /\ s_sent s = false /\ s_buf s = p_buf a /\ Forall bounded (p_buf a) /\ length (p_buf a) = size /\ s_start s = p_start a
  /\ Forall2 rel (s_notes s) (p_slots a) /\ length (p_slots a) = NUM_NOTES /\ s_counter s = p_next a /\ (p_next a < NUM_NOTES)%nat /\ s_played s = p_out a /\ Forall bounded (p_out a).
Lemma silence_bounded : Forall bounded silence.
Proof. unfold silence. apply Forall_forall. intros x X. apply repeat_spec in X. subst. unfold bounded, MAX_AMPLITUDE. lia. Qed.
Lemma silence_length : length silence = size.
Proof. apply repeat_length. Qed.
Lemma sim_turn s a : sim s a -> exists s1, callback s = Ok s1 /\ sim (switch s1) (p_turn a).
Proof.
  intros (A & A1 & B & C & D & E0 & F & G & K & K1 & L & L1). unfold callback. rewrite B. destruct (trail_ok _ _ F (p_buf a) C) as (ns & T & R). rewrite T.
  destruct (fold_level_inv (p_slots a) (p_buf a) C) as [V1 V2]. eexists. split; [reflexivity|]. unfold switch, sim, p_turn. cbn [s_ready s_sent s_buf s_start s_notes s_counter s_played p_buf p_start p_slots p_next p_out].
  split; [reflexivity|]. split; [reflexivity|]. split; [reflexivity|]. split; [exact silence_bounded|]. split; [exact silence_length|]. split; [now rewrite E0|].
  split; [rewrite <- D; exact R|]. split; [now rewrite map_length|]. split; [exact K|]. split; [exact K1|]. split; [rewrite L; reflexivity|]. apply Forall_app. split; [exact L1|exact V1].
Qed.
Lemma set_nth_length {A} (x : A) : forall l i, length (set_nth i x l) = length l.
Proof. induction l as [|y l IH]; intros [|i]; cbn; auto. Qed.
Lemma set_nth_forall2 {A B} (R : A -> B -> Prop) x y : R x y -> forall l l' i, Forall2 R l l' -> Forall2 R (set_nth i x l) (set_nth i y l').
Proof. intros H l l' i F. revert i. induction F as [|a b l l' Hab F IH]; intros [|i]; cbn [set_nth]; constructor; auto. Qed.
Lemma set_nth_forall {A} (P : A -> Prop) x : P x -> forall l i, Forall P l -> Forall P (set_nth i x l).
Proof. intros H l i F. revert i. induction F; intros [|i]; cbn [set_nth]; constructor; auto. Qed.
Lemma sim_play s a w e t : sim s a -> proper (Note w e t) -> - 2 ^ 63 <= t - p_start a < 2 ^ 63 / SAMPLE_RATE ->
  exists r, play s w e t = Ok r /\
    (AUDIO_BUFFER_SIZE <= index_of a t -> r = None) /\
    (index_of a t < AUDIO_BUFFER_SIZE -> exists s', r = Some (s', if t <? p_start a then 1 else 0)) /\
    sim (match r with Some (s', _) => s' | None => s end) (p_play a w e t).
Proof.
  intros S0 (M & W) T. pose proof S0 as (A & A1 & B & C & D & E0 & F & G & K & K1 & L & L1). unfold play. rewrite A, E0. cbn [negb].
  change (2 ^ 63 / SAMPLE_RATE) with 209146758205323 in T.
  assert (I1 : in_int64 (t - p_start a) = true) by (unfold in_int64; change (2 ^ 63) with 9223372036854775808 in *; lia). rewrite I1. cbn [negb]. cbv zeta.
  assert (O : (if t - p_start a <? 0 then 0 else t - p_start a) = Z.max 0 (t - p_start a)) by (destruct (Z.ltb_spec (t - p_start a) 0); lia). rewrite O.
  assert (I2 : in_int64 (Z.max 0 (t - p_start a) * SAMPLE_RATE) = true) by (unfold in_int64, SAMPLE_RATE; change (2 ^ 63) with 9223372036854775808 in *; lia). rewrite I2. cbn [negb].
  fold (index_of a t). unfold p_play, with_note. assert (P0 : 0 <= index_of a t) by (unfold index_of; apply Z.div_pos; unfold SAMPLE_RATE, BILLION; lia).
  assert (Re : (if t - p_start a <? 0 then 1 else 0) = (if t <? p_start a then 1 else 0)) by (destruct (Z.ltb_spec (t - p_start a) 0), (Z.ltb_spec t (p_start a)); lia). rewrite Re.
  destruct (Z.leb_spec AUDIO_BUFFER_SIZE (index_of a t)) as [Q|Q].
  { exists None. split; [reflexivity|]. split; [reflexivity|]. split; [lia|exact S0]. }
  rewrite B. assert (Il : (Z.to_nat (index_of a t) < length (p_buf a))%nat) by (rewrite D; unfold size; apply Z2Nat.inj_lt; lia).
  destruct w as [w|]; cbn [option_map].
  - assert (Lw : 0 <? w_length w = true) by (destruct W as (_ & _ & X & _); lia). rewrite Lw.
    pose proof (m_of_le w W) as ML.
    pose proof (fill_ok w e W M (skipn (Z.to_nat (index_of a t)) (p_buf a)) 0 (skipn_forall _ _ _ C) ltac:(lia)) as Fi.
    change (Z.of_nat 0 * w_channels w) with 0 in Fi. rewrite Fi. cbn [Nat.add]. rewrite skipn_length, D. change (skipn 0 (heard w)) with (heard w).
    eexists. split; [reflexivity|]. split; [lia|]. split; [intros _; eexists; reflexivity|].
    unfold sim. cbn [s_ready s_sent s_buf s_start s_notes s_counter s_played p_buf p_start p_slots p_next p_out].
    split; [reflexivity|]. split; [exact A1|]. split; [reflexivity|]. split; [apply Forall_app; split; [now apply firstn_forall|apply overlay_bounded; now apply skipn_forall]|].
    split; [rewrite app_length, overlay_length, <- app_length, firstn_skipn; exact D|]. split; [reflexivity|]. split.
    + rewrite K. apply set_nth_forall2; [|exact F].
      pose proof (after_fill w e 0 (size - Z.to_nat (index_of a t)) W M ltac:(lia)) as X. cbn [Nat.add] in X.
      destruct (Nat.ltb (size - Z.to_nat (index_of a t)) (m_of w)); [exact X|]. left. split; [right; reflexivity|].
      destruct X as [[_ X]|(w' & j' & _ & _ & Y & _)]; [exact X|discriminate Y].
    + split; [now rewrite set_nth_length|]. split; [|split; [apply Nat.mod_upper_bound; discriminate|split; [exact L|exact L1]]].
      rewrite K. destruct (Nat.leb_spec NUM_NOTES (S (p_next a))) as [X|X].
      * assert (Y : S (p_next a) = NUM_NOTES) by lia. rewrite Y. reflexivity.
      * symmetry. now apply Nat.mod_small.
  - rewrite add_ok; [|exact M|apply (proj1 (Forall_forall _ _) C); now apply nth_In|unfold MAX_AMPLITUDE; lia].
    rewrite <- overlay_one by exact Il. eexists. split; [reflexivity|]. split; [lia|]. split; [intros _; eexists; reflexivity|].
    unfold sim. cbn [s_ready s_sent s_buf s_start s_notes s_counter s_played p_buf p_start p_slots p_next p_out].
    split; [reflexivity|]. split; [exact A1|]. split; [reflexivity|]. split; [apply Forall_app; split; [now apply firstn_forall|apply overlay_bounded; now apply skipn_forall]|].
    split; [rewrite app_length, overlay_length, <- app_length, firstn_skipn; exact D|]. split; [reflexivity|]. auto 9.
Qed.
Lemma run_app l1 : forall l2 s, run s (l1 ++ l2) = match run s l1 with Ok s' => run s' l2 | UB => UB end.
Proof. induction l1 as [|o l1 IH]; intros l2 s; cbn [run app]; [reflexivity|]. destruct (step s o); auto. Qed.
Lemma simulation l : forall s a, sim s a -> Forall proper l -> near a l -> exists s', run s (ops l) = Ok s' /\ sim s' (p_run a l).
Proof.
  induction l as [|o l IH]; intros s a S0 F N; [exists s; split; [reflexivity|exact S0]|]. inversion F as [|? ? F1 F2]; subst. destruct N as [N1 N2].
  unfold ops. cbn [flat_map]. rewrite run_app. change (p_run a (o :: l)) with (p_run (p_step a o) l). destruct o as [|w e t].
  - destruct (sim_turn s a S0) as (s1 & C & S1). cbn [run step]. rewrite C. now apply IH.
  - destruct (sim_play s a w e t S0 F1 N1) as (r & R & _ & _ & S1). cbn [run step]. rewrite R. destruct r as [[s' z]|]; now apply IH.
Qed.
Lemma sim_init t0 : exists s, run (start_audio_loop t0) [Callback; Switch] = Ok s /\ sim s (p_init t0).
Proof.
  cbn [run step]. unfold callback. cbn [s_notes s_buf start_audio_loop].
  assert (R : Forall2 rel (repeat no_note NUM_NOTES) (repeat ((0, 1%positive), []) NUM_NOTES)).
  { induction NUM_NOTES as [|n IH]; cbn [repeat]; constructor; [|exact IH]. left. split; [left; reflexivity|left; reflexivity]. }
  destruct (trail_ok _ _ R silence silence_bounded) as (ns & T & R2). rewrite T.
  rewrite fold_overlay_zero; [|exact silence_bounded|apply Forall_forall; intros x X; apply repeat_spec in X; subst x; left; reflexivity].
  eexists. split; [reflexivity|]. unfold switch, sim, p_init. cbn [s_ready s_sent s_buf s_start s_notes s_counter s_played p_buf p_start p_slots p_next p_out start_audio_loop].
  split; [reflexivity|]. split; [reflexivity|]. split; [reflexivity|]. split; [exact silence_bounded|]. split; [exact silence_length|]. split; [unfold BUFFER_DURATION_NS; lia|].
  split.
  - assert (Q : forall n k, map (fun s : volume * list Z => (fst s, skipn k (snd s))) (repeat ((0, 1%positive), []) n) = repeat ((0, 1%positive), []) n).
    { intros n k. induction n as [|n IH]; cbn [repeat map]; [reflexivity|]. cbn [fst snd]. now rewrite skipn_nil, IH. }
    rewrite Q in R2. exact R2.
  - split; [apply repeat_length|]. split; [reflexivity|]. split; [unfold NUM_NOTES; lia|]. split; [reflexivity|exact silence_bounded].
Qed.

(** * Amplitudes in all histories *)
Lemma add_bounded b v e r : add_to_sound b v e = Ok r -> bounded r.
Proof. unfold add_to_sound. cbv zeta. destruct (in_int _); [|discriminate]. intros [= <-]. rewrite clip_mixed. unfold bounded, MAX_AMPLITUDE. lia. Qed.
Lemma fill_bounded w e : forall buf p r q, Forall bounded buf -> fill w e buf p = Ok (r, q) -> Forall bounded r.
Proof.
  induction buf as [|b buf IH]; intros p r q B H; cbn [fill] in H; [injection H as <- _; constructor|]. inversion B as [|? ? B1 B2]; subst.
  destruct (frame w p) as [v|]; [|discriminate]. destruct (add_to_sound b v e) as [b'|] eqn:A; [|discriminate]. cbv zeta in H. destruct (_ <=? _) in H; [discriminate|].
  apply add_bounded in A. destruct (_ <=? _) in H; [injection H as <- _; now constructor|]. destruct (fill w e buf (p + w_channels w)) as [[r' q']|] eqn:Fi; [|discriminate].
  injection H as <- <-. constructor; [exact A|]. eapply IH; eassumption.
Qed.
Lemma trail_bounded : forall notes buf ns r, Forall bounded buf -> trail notes buf = Ok (ns, r) -> Forall bounded r.
Proof.
  induction notes as [|n notes IH]; intros buf ns r B H; cbn [trail] in H; [injection H as _ <-; exact B|].
  assert (X : forall buf', Forall bounded buf' -> forall n', match trail notes buf' with Ok (ns, b) => Ok (n' :: ns, b) | UB => UB end = Ok (ns, r) -> Forall bounded r).
  { intros buf' B' n' H'. destruct (trail notes buf') as [[ns' r']|] eqn:T; [|discriminate]. injection H' as _ <-. eapply IH; eassumption. }
  destruct (n_wave n) as [w|]; [|eapply X; eassumption]. destruct (fst (n_vol n) =? 0); [eapply X; eassumption|].
  destruct (fill w (n_vol n) buf (n_pos n)) as [[b q]|] eqn:Fi; [|discriminate]. cbv zeta in H. eapply X; [|exact H]. eapply fill_bounded; eassumption.
Qed.
Definition tame (s : state) : Prop := Forall bounded (s_buf s) /\ Forall bounded (s_played s).
Lemma step_tame s o s' : tame s -> step s o = Ok s' -> tame s'.
Proof.
  intros [B P] H. destruct o as [| |w e t]; cbn [step] in H.
  - unfold callback in H. destruct (trail (s_notes s) (s_buf s)) as [[ns b]|] eqn:T; [|discriminate]. injection H as <-. apply (trail_bounded _ _ _ _ B) in T.
    split; cbn [s_buf s_played]; [exact T|apply Forall_app; auto].
  - injection H as <-. split; [exact silence_bounded|exact P].
  - destruct (play s w e t) as [[[s1 r]|]|] eqn:Q; [|injection H as <-; split; assumption|discriminate]. injection H as <-. unfold play in Q. cbv zeta in Q.
    destruct (negb (s_ready s)); [discriminate|]. destruct (negb (in_int64 _)) in Q; [discriminate|]. destruct (negb (in_int64 _)) in Q; [discriminate|].
    destruct (_ <=? _) in Q; [discriminate|]. destruct w as [w|].
    + destruct (0 <? w_length w).
      * destruct (fill w e _ 0) as [[b q]|] eqn:Fi in Q; [|discriminate]. injection Q as <- _. split; cbn [s_buf s_played]; [|exact P].
        apply Forall_app. split; [now apply firstn_forall|]. eapply fill_bounded; [|exact Fi]. now apply skipn_forall.
      * injection Q as <- _. split; assumption.
    + destruct (add_to_sound _ _ e) as [b|] eqn:A in Q; [|discriminate]. injection Q as <- _. split; cbn [s_buf s_played]; [|exact P]. apply set_nth_forall; [eapply add_bounded; exact A|exact B].
Qed.
Lemma run_tame l : forall s s', tame s -> run s l = Ok s' -> tame s'.
Proof.
  induction l as [|o l IH]; intros s s' T H; cbn [run] in H; [injection H as <-; exact T|]. destruct (step s o) as [s1|] eqn:Q; [|discriminate].
  eapply IH; [eapply step_tame; eassumption|exact H].
Qed.

(** * Notes within a buffer *)
Definition quiet (s : volume * list Z) : Prop := snd s = [].
Lemma fold_quiet slots : Forall quiet slots -> forall buf, fold_left level slots buf = buf.
Proof. induction 1 as [|s slots Q _ IH]; intros buf; cbn [fold_left]; [reflexivity|]. rewrite IH. unfold level. unfold quiet in Q. rewrite Q. apply overlay_nil. Qed.
Lemma quiet_turn k l : Forall quiet l -> Forall quiet (map (fun s : volume * list Z => (fst s, skipn k (snd s))) l).
Proof. rewrite !Forall_forall. intros H x X. apply in_map_iff in X. destruct X as (y & <- & Y). unfold quiet. cbn [snd]. rewrite (H y Y : snd y = []). apply skipn_nil. Qed.
Lemma overlay_app2 e : forall vs buf us, overlay e buf (vs ++ us) = overlay e (firstn (length vs) buf) vs ++ overlay e (skipn (length vs) buf) us.
Proof.
  induction vs as [|v vs IH]; intros buf us; cbn [app length firstn skipn]; [reflexivity|]. destruct buf as [|b buf]; cbn [overlay firstn skipn app]; [reflexivity|]. now rewrite IH.
Qed.
Lemma overlay_silent e : forall buf, Forall bounded buf -> overlay e buf [0] = buf.
Proof.
  intros [|b buf] B; [reflexivity|]. cbn [overlay]. rewrite overlay_nil. f_equal. inversion B as [|? ? B1 _]; subst. unfold mixed. rewrite Z.mul_0_l, Z.add_0_r, Z.quot_mul by lia. unfold bounded in B1. lia.
Qed.
Lemma frames_length w : length (frames w) = count w.
Proof. unfold frames. now rewrite map_length, seq_length. Qed.
Lemma heard_quiet w e buf : whole w -> quiet_end w -> Forall bounded buf -> overlay e buf (frames w) = overlay e buf (heard w).
Proof.
  intros W Q B. destruct (count_spec w W) as [C _]. destruct (Nat.eq_dec (count w) 1) as [N|N].
  - unfold heard. rewrite N. cbn [Nat.sub Nat.max]. f_equal. symmetry. apply firstn_all2. rewrite frames_length. lia.
  - destruct Q as [Q|Q]; [contradiction|]. assert (F : frames w = heard w ++ [0]).
    { rewrite (heard_map w W). unfold frames, m_of. rewrite Nat.max_r by lia. replace (count w) with (count w - 1 + 1)%nat at 1 by lia. rewrite seq_app, map_app. cbn [seq map Nat.add]. now rewrite Q. }
    rewrite F, overlay_app2. rewrite overlay_silent by now apply skipn_forall.
    pose proof (overlay_app2 e (heard w) buf []) as X. rewrite app_nil_r, overlay_nil in X. symmetry. exact X.
Qed.
Definition alike (a b : player) : Prop :=
  p_buf a = p_buf b /\ p_start a = p_start b /\ p_out a = p_out b /\ Forall quiet (p_slots a) /\ Forall quiet (p_slots b) /\ Forall bounded (p_buf a) /\ length (p_buf a) = size.
Lemma bounded_note buf i e vs : Forall bounded buf -> length buf = size -> Forall bounded (firstn i buf ++ overlay e (skipn i buf) vs) /\ length (firstn i buf ++ overlay e (skipn i buf) vs) = size.
Proof.
  intros B L. split; [apply Forall_app; split; [now apply firstn_forall|apply overlay_bounded; now apply skipn_forall]|]. rewrite app_length, overlay_length, <- app_length, firstn_skipn. exact L.
Qed.
Lemma alike_run l : forall a b, alike a b -> Forall proper l -> fitting a l -> p_out (i_run a l) = p_out (p_run b l).
Proof.
  induction l as [|o l IH]; intros a b A P F; [destruct A as (_ & _ & A & _); exact A|]. inversion P as [|? ? P1 P2]; subst. destruct F as [F1 F2].
  change (i_run a (o :: l)) with (i_run (i_step a o) l). change (p_run b (o :: l)) with (p_run (p_step b o) l). apply IH; [|exact P2|exact F2]. clear IH F2 P P2.
  destruct A as (A1 & A2 & A3 & A4 & A5 & A6 & A7). destruct o as [|w e t]; cbn [i_step p_step].
  - unfold alike, i_turn, p_turn. cbn [p_buf p_start p_slots p_out]. change (fun (b : list Z) (s : volume * list Z) => overlay (fst s) b (snd s)) with level.
    rewrite !fold_quiet by assumption. rewrite A1, A2, A3. split; [reflexivity|]. split; [reflexivity|]. split; [reflexivity|]. split; [now apply quiet_turn|]. split; [now apply quiet_turn|].
    split; [exact silence_bounded|exact silence_length].
  - unfold i_play, p_play, with_note. assert (I0 : index_of b t = index_of a t) by (unfold index_of; now rewrite A2). rewrite I0.
    destruct (Z.leb_spec AUDIO_BUFFER_SIZE (index_of a t)) as [L|L]; [unfold alike; auto 9|]. cbv zeta. destruct P1 as [M W].
    destruct w as [w|]; cbn [option_map]; unfold alike; cbn [p_buf p_start p_slots p_out]; rewrite <- A1, <- A2, <- A3.
    + destruct F1 as [Qe F1]. specialize (F1 L). rewrite (heard_quiet w e _ W Qe (skipn_forall _ _ _ A6)).
      assert (P0 : 0 <= index_of a t) by (unfold index_of; apply Z.div_pos; unfold SAMPLE_RATE, BILLION; lia).
      assert (Sz : Z.of_nat size = AUDIO_BUFFER_SIZE) by (unfold size; apply Z2Nat.id; unfold AUDIO_BUFFER_SIZE; lia).
      assert (Cn : (count w <= size - Z.to_nat (index_of a t))%nat) by (apply Nat2Z.inj_le; rewrite Nat2Z.inj_sub, Z2Nat.id, Sz by (try (apply Nat2Z.inj_le; rewrite Z2Nat.id, Sz); lia); lia).
      split; [reflexivity|]. split; [reflexivity|]. split; [reflexivity|]. split; [apply set_nth_forall; [|exact A4]|split; [apply set_nth_forall; [|exact A5]|now apply bounded_note]].
      * unfold quiet. cbn [snd]. apply skipn_all2. rewrite frames_length. exact Cn.
      * unfold quiet. cbn [snd]. apply skipn_all2. rewrite (heard_length w W). pose proof (m_of_le w W). lia.
    + split; [reflexivity|]. split; [reflexivity|]. split; [reflexivity|]. split; [exact A4|]. split; [exact A5|]. now apply bounded_note.
Qed.

(** * Eight notes *)
Lemma nth_set_other {A} (x d : A) : forall l i k, i <> k -> nth k (set_nth i x l) d = nth k l d.
Proof. induction l as [|y l IH]; intros [|i] [|k] H; cbn [set_nth nth]; auto; try contradiction. Qed.
Lemma nth_set_same {A} (x d : A) : forall l i, (i < length l)%nat -> nth i (set_nth i x l) d = x.
Proof. induction l as [|y l IH]; intros [|i] H; cbn [set_nth nth length] in *; try lia; auto. apply IH. lia. Qed.
Lemma next_other n d : (n < 8 -> 1 <= d <= 7 -> (n + d) mod 8 <> n /\ ((S n mod 8) + (d - 1)) mod 8 = (n + d) mod 8)%nat.
Proof.
  intros N D. do 8 (destruct n as [|n]; [do 8 (destruct d as [|d]; [first [lia|split; [cbn; lia|reflexivity]]|]); lia|]). lia.
Qed.
Lemma slot_stays l : forall a k d dflt, (p_next a < NUM_NOTES)%nat -> (1 <= d + 1 <= 8)%nat -> (plays l <= d)%nat -> ((p_next a + d) mod NUM_NOTES = k)%nat -> fst dflt = (0, 1%positive) /\ snd dflt = [] ->
  nth k (p_slots (p_run a l)) dflt = (fst (nth k (p_slots a) dflt), skipn (turns l * size) (snd (nth k (p_slots a) dflt))).
Proof.
  induction l as [|o l IH]; intros a k d dflt N D P K Df.
  - cbn [p_run fold_left turns filter length Nat.mul skipn]. now destruct (nth k (p_slots a) dflt).
  - change (p_run a (o :: l)) with (p_run (p_step a o) l). destruct o as [|w e t]; cbn [p_step].
    + change (turns (Turn :: l)) with (S (turns l)). rewrite (IH (p_turn a) k d dflt); [|exact N|exact D|exact P|exact K|exact Df].
      cbn [p_turn p_slots]. assert (Q : nth k (map (fun s : volume * list Z => (fst s, skipn size (snd s))) (p_slots a)) dflt = (fst (nth k (p_slots a) dflt), skipn size (snd (nth k (p_slots a) dflt)))).
      { rewrite <- (map_nth (fun s : volume * list Z => (fst s, skipn size (snd s)))). f_equal. destruct dflt as [v vs]. cbn [fst snd] in *. destruct Df as [-> ->]. now rewrite skipn_nil. }
      rewrite Q. cbn [fst snd]. rewrite skipn_skipn'. reflexivity.
    + change (turns (Note w e t :: l)) with (turns l). unfold p_play, with_note. destruct (AUDIO_BUFFER_SIZE <=? index_of a t).
      * apply (IH a k d dflt); auto. unfold plays in *. cbn [filter] in P. destruct w; cbn [length] in P; lia.
      * cbv zeta. destruct w as [w|]; cbn [option_map].
        -- change (plays (Note (Some w) e t :: l)) with (S (plays l)) in P. unfold NUM_NOTES in *. destruct (next_other (p_next a) d N ltac:(lia)) as [X Y].
           rewrite (IH _ k (d - 1)%nat dflt); cbn [p_next p_slots]; [|apply Nat.mod_upper_bound; discriminate|lia|lia|congruence|exact Df].
           rewrite nth_set_other by congruence. reflexivity.
        -- change (plays (Note None e t :: l)) with (plays l) in P. rewrite (IH _ k d dflt); cbn [p_next p_slots]; auto.
Qed.
