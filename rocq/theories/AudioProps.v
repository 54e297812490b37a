(** C98: sounds that a program plays. *)
From Verif Require Import Base Audio AudioSpec AudioProofs.
Open Scope Z_scope.
Local Open Scope list_scope.

Lemma started t0 l : Forall proper l -> near (p_init t0) l -> exists s, run (start_audio_loop t0) (Callback :: Switch :: ops l) = Ok s /\ sim s (p_run (p_init t0) l).
Proof.
  intros P N. destruct (sim_init t0) as (s0 & R & S0). destruct (simulation l s0 _ S0 P N) as (s & R1 & S1). exists s. split; [|exact S1].
  change (Callback :: Switch :: ops l) with ([Callback; Switch] ++ ops l). rewrite run_app, R. exact R1.
Qed.

(** Proper sounds at times that are near never make the behaviour undefined, and what is heard is what the player hands over. *)
Theorem C98_exact t0 l : Forall proper l -> near (p_init t0) l ->
  exists s, run (start_audio_loop t0) (Callback :: Switch :: ops l) = Ok s /\ s_played s = p_out (p_run (p_init t0) l).
Proof. intros P N. destruct (started t0 l P N) as (s & R & (_ & _ & _ & _ & _ & _ & _ & _ & _ & _ & L & _)). eauto. Qed.

(** Sounds that fit into their buffers and end in silence are heard as they should be: each at its time, added to the others.
    Missing: the last frame of a sound, and sounds that go on in the next buffer ([C98_early_refuted]). *)
Theorem C98_heard_partial t0 l : Forall proper l -> near (p_init t0) l -> fitting (p_init t0) l ->
  exists s, run (start_audio_loop t0) (Callback :: Switch :: ops l) = Ok s /\ s_played s = p_out (i_run (p_init t0) l).
Proof.
  intros P N F. destruct (C98_exact t0 l P N) as (s & R & L). exists s. split; [exact R|]. rewrite L. symmetry. apply alike_run; [|exact P|exact F].
  assert (Q : Forall quiet (p_slots (p_init t0))) by (cbn [p_slots p_init]; apply Forall_forall; intros x X; apply repeat_spec in X; now subst).
  unfold alike. cbn [p_buf p_start p_out p_init]. split; [reflexivity|]. split; [reflexivity|]. split; [reflexivity|]. split; [exact Q|]. split; [exact Q|]. split; [exact silence_bounded|exact silence_length].
Qed.
Definition ding : waveform := mkWaveform 6 2 [1000; 2000; -300; 300; 0; 0].
Definition song : list event := [Turn; Note (Some ding) (1, 2%positive) 1000000; Note None (1, 1%positive) 50000000; Turn; Turn].
Lemma ding_whole : whole ding.
Proof. unfold whole, ding. cbn. repeat split; try lia; [now exists 3|]. repeat constructor; lia. Qed.
Lemma song_proper : Forall proper song.
Proof. unfold song. repeat constructor; cbn; unfold modest; cbn; try lia; apply ding_whole. Qed.
Example C98_ex : near (p_init 0) song /\ fitting (p_init 0) song /\ firstn 3 (skipn (size + size + 44) (p_out (i_run (p_init 0) song))) = [750; 0; 0].
Proof.
  split; [|split; [|vm_compute; reflexivity]].
  - unfold song. cbn [near]. repeat split; vm_compute; try reflexivity; discriminate.
  - unfold song. cbn [fitting]. repeat split; [right; vm_compute; reflexivity|]. intros _. vm_compute. discriminate.
Qed.

(** No history whatever makes an amplitude that is too large. *)
Theorem C98_amplitude t0 l s : run (start_audio_loop t0) l = Ok s -> Forall bounded (s_played s).
Proof.
  intros R. refine (proj2 (run_tame l _ _ _ R)). split; [exact silence_bounded|constructor].
Qed.
Example C98_amplitude_ex :
  exists s, run (start_audio_loop 0) (Callback :: Switch :: ops [Turn; Note None (3, 1%positive) 5; Note None (3, 1%positive) 5; Turn]) = Ok s /\ nth (size + size) (s_played s) 0 = 32765.
Proof. eexists. split; [vm_compute; reflexivity|]. vm_compute. reflexivity. Qed.

Lemma start_turns l : forall a, p_start (p_run a l) = p_start a + Z.of_nat (turns l) * BUFFER_DURATION_NS.
Proof.
  induction l as [|o l IH]; intros a; [cbn [p_run fold_left turns filter length]; lia|]. change (p_run a (o :: l)) with (p_run (p_step a o) l). rewrite IH.
  destruct o as [|w e t]; cbn [p_step].
  - change (turns (Turn :: l)) with (S (turns l)). cbn [p_turn p_start]. lia.
  - change (turns (Note w e t :: l)) with (turns l). f_equal. unfold p_play, with_note. destruct (_ <=? _); [reflexivity|]. cbv zeta. now destruct w.
Qed.
(** The caller waits exactly if the time is after the buffer being filled, and is told exactly if it is before. *)
Theorem C98_time t0 l w e t : Forall proper (l ++ [Note w e t]) -> near (p_init t0) l ->
  - 2 ^ 63 <= t - (t0 + (Z.of_nat (turns l) - 1) * BUFFER_DURATION_NS) < 2 ^ 63 / SAMPLE_RATE ->
  exists s r, run (start_audio_loop t0) (Callback :: Switch :: ops l) = Ok s /\ play s w e t = Ok r
  /\ (r = None <-> t0 + Z.of_nat (turns l) * BUFFER_DURATION_NS <= t)
  /\ (forall s' k, r = Some (s', k) -> (k = 1 /\ t < t0 + (Z.of_nat (turns l) - 1) * BUFFER_DURATION_NS) \/ (k = 0 /\ t0 + (Z.of_nat (turns l) - 1) * BUFFER_DURATION_NS <= t)).
Proof.
  intros P N T. apply Forall_app in P. destruct P as [P P1]. inversion P1 as [|? ? P2 _]; subst. destruct (started t0 l P N) as (s & R & S1).
  pose proof (start_turns l (p_init t0)) as St. cbn [p_init p_start] in St. replace (t0 - BUFFER_DURATION_NS + Z.of_nat (turns l) * BUFFER_DURATION_NS) with (t0 + (Z.of_nat (turns l) - 1) * BUFFER_DURATION_NS) in St by lia.
  rewrite <- St in *. fold (p_init t0) in *.
  destruct (sim_play s _ w e t S1 P2 T) as (r & Pl & A & B & _). exists s, r. split; [exact R|]. split; [exact Pl|].
  assert (Q : AUDIO_BUFFER_SIZE <= index_of (p_run (p_init t0) l) t <-> t0 + Z.of_nat (turns l) * BUFFER_DURATION_NS <= t).
  { replace (t0 + Z.of_nat (turns l) * BUFFER_DURATION_NS) with (p_start (p_run (p_init t0) l) + BUFFER_DURATION_NS) by (rewrite St; lia).
    unfold index_of. set (o := Z.max 0 (t - _)). assert (O1 : BUFFER_DURATION_NS <= o <-> p_start (p_run (p_init t0) l) + BUFFER_DURATION_NS <= t) by (unfold o, BUFFER_DURATION_NS; lia).
    rewrite <- O1. unfold AUDIO_BUFFER_SIZE, BUFFER_DURATION_NS, SAMPLE_RATE, BILLION. Z.div_mod_to_equations. lia. }
  split.
  - rewrite <- Q. split; [|exact A]. intros ->. destruct (Z.le_gt_cases AUDIO_BUFFER_SIZE (index_of (p_run (p_init t0) l) t)) as [X|X]; [exact X|]. destruct (B X) as (s' & Y). discriminate.
  - intros s' k ->. destruct (Z.le_gt_cases AUDIO_BUFFER_SIZE (index_of (p_run (p_init t0) l) t)) as [X|X]; [specialize (A X); discriminate|]. destruct (B X) as (s2 & Y). injection Y as _ ->.
    destruct (Z.ltb_spec t (p_start (p_run (p_init t0) l))); [left|right]; auto.
Qed.
Example C98_time_ex : exists s, run (start_audio_loop 0) (Callback :: Switch :: ops [Turn; Turn]) = Ok s /\ (exists s', play s None (1, 1%positive) 99999999 = Ok (Some (s', 1))) /\ (exists s', play s None (1, 1%positive) 199999999 = Ok (Some (s', 0)))
  /\ play s None (1, 1%positive) 200000000 = Ok None.
Proof. eexists. split; [vm_compute; reflexivity|]. split; [eexists; vm_compute; reflexivity|]. split; [eexists; vm_compute; reflexivity|]. vm_compute; reflexivity. Qed.

(** A tick changes one sample, the one of its time. *)
Theorem C98_tick s e t s' : play s None e t = Ok (Some (s', 0)) -> length (s_buf s) = size ->
  exists i, Z.of_nat i * BILLION <= (t - s_start s) * SAMPLE_RATE < (Z.of_nat i + 1) * BILLION /\ (i < size)%nat
  /\ nth i (s_buf s') 0 = mixed e (nth i (s_buf s) 0) MAX_AMPLITUDE /\ (forall j, j <> i -> nth j (s_buf s') 0 = nth j (s_buf s) 0) /\ s_notes s' = s_notes s /\ s_played s' = s_played s.
Proof.
  unfold play. destruct (s_ready s); cbn [negb]; [|discriminate]. destruct (negb (in_int64 (t - s_start s))); [discriminate|]. cbv zeta.
  destruct (Z.ltb_spec (t - s_start s) 0) as [X|X].
  { destruct (negb _); [discriminate|]. destruct (_ <=? _); [discriminate|]. destruct (add_to_sound _ _ _); discriminate. }
  destruct (negb _); [discriminate|]. destruct (Z.leb_spec AUDIO_BUFFER_SIZE ((t - s_start s) * SAMPLE_RATE / BILLION)) as [Y|Y]; [discriminate|].
  set (i := (t - s_start s) * SAMPLE_RATE / BILLION) in *. intros H L.
  assert (I0 : 0 <= i) by (apply Z.div_pos; unfold SAMPLE_RATE, BILLION; lia).
  assert (Sz : (Z.to_nat i < size)%nat) by (unfold size; apply Z2Nat.inj_lt; unfold AUDIO_BUFFER_SIZE in *; lia).
  destruct (add_to_sound (nth (Z.to_nat i) (s_buf s) 0) MAX_AMPLITUDE e) as [b|] eqn:A; [|discriminate]. injection H as <-. cbn [s_buf s_notes s_played].
  exists (Z.to_nat i). rewrite Z2Nat.id by exact I0. split; [|split; [exact Sz|split; [|split; [|auto]]]].
  - unfold i. unfold BILLION in *. pose proof (Z.div_mod ((t - s_start s) * SAMPLE_RATE) 1000000000 ltac:(discriminate)). pose proof (Z.mod_pos_bound ((t - s_start s) * SAMPLE_RATE) 1000000000 ltac:(reflexivity)). lia.
  - rewrite nth_set_same by (rewrite L; exact Sz). unfold add_to_sound in A. cbv zeta in A. destruct (in_int _); [|discriminate]. injection A as <-. rewrite clip_mixed. reflexivity.
  - intros j J. apply nth_set_other. congruence.
Qed.
Example C98_tick_ex : exists s s', run (start_audio_loop 0) [Callback; Switch; Callback; Switch] = Ok s /\ play s None (1, 2%positive) 1000000 = Ok (Some (s', 0)) /\ nth 44 (s_buf s') 0 = 16382 /\ length (s_buf s) = size.
Proof. eexists. eexists. split; [vm_compute; reflexivity|]. split; [vm_compute; reflexivity|]. split; vm_compute; reflexivity. Qed.

(** A caller that has to wait for a buffer is not late when that buffer has been handed over. *)
Theorem C98_ontime s w e t s1 s2 k : s_ready s = true -> play s w e t = Ok None -> callback s = Ok s1 -> play (switch s1) w e t = Ok (Some (s2, k)) -> k = 0.
Proof.
  intros Rd Pl Cb P2. assert (L : BUFFER_DURATION_NS <= t - s_start s).
  { unfold play in Pl. rewrite Rd in Pl. cbn [negb] in Pl. destruct (negb (in_int64 (t - s_start s))); [discriminate|]. cbv zeta in Pl. destruct (Z.ltb_spec (t - s_start s) 0) as [X|X].
    - cbn -[nth skipn firstn fill add_to_sound] in Pl. destruct w as [w|].
      + destruct (0 <? w_length w); [|discriminate]. destruct (fill w e _ 0) as [[? ?]|]; discriminate.
      + destruct (add_to_sound _ _ _); discriminate.
    - destruct (negb _); [discriminate|]. destruct (Z.leb_spec AUDIO_BUFFER_SIZE ((t - s_start s) * SAMPLE_RATE / BILLION)) as [Y|Y].
      + unfold AUDIO_BUFFER_SIZE, BUFFER_DURATION_NS, SAMPLE_RATE, BILLION in *. Z.div_mod_to_equations. lia.
      + destruct w as [w|].
        * destruct (0 <? w_length w); [|discriminate]. destruct (fill w e _ 0) as [[? ?]|]; discriminate.
        * destruct (add_to_sound _ _ _); discriminate. }
  unfold callback in Cb. destruct (trail _ _) as [[ns b]|]; [|discriminate]. injection Cb as <-. unfold play, switch in P2. cbn [s_ready s_start negb s_buf s_notes s_counter s_played s_sent] in P2.
  destruct (negb (in_int64 _)); [discriminate|]. cbv zeta in P2. destruct (Z.ltb_spec (t - (s_start s + BUFFER_DURATION_NS)) 0) as [X|X]; [lia|].
  destruct (negb _); [discriminate|]. destruct (_ <=? _); [discriminate|]. destruct w as [w|].
  - destruct (0 <? w_length w); [destruct (fill w e _ 0) as [[? ?]|]; [|discriminate]|]; injection P2 as _ <-; reflexivity.
  - destruct (add_to_sound _ _ _); [|discriminate]. injection P2 as _ <-. reflexivity.
Qed.
Example C98_ontime_ex : exists s s1 s2, run (start_audio_loop 0) [Callback; Switch] = Ok s /\ play s (Some ding) (1, 1%positive) 10 = Ok None /\ callback s = Ok s1 /\ play (switch s1) (Some ding) (1, 1%positive) 10 = Ok (Some (s2, 0)).
Proof. do 3 eexists. split; [vm_compute; reflexivity|]. split; [vm_compute; reflexivity|]. split; [vm_compute; reflexivity|]. vm_compute. reflexivity. Qed.

(** What is left of a note is not touched by up to seven more notes. *)
Theorem C98_eight a w e t l : length (p_slots a) = NUM_NOTES -> (p_next a < NUM_NOTES)%nat -> index_of a t < AUDIO_BUFFER_SIZE -> (plays l <= 7)%nat ->
  nth (p_next a) (p_slots (p_run a (Note (Some w) e t :: l))) ((0, 1%positive), []) = (e, skipn (size - Z.to_nat (index_of a t) + turns l * size) (heard w)).
Proof.
  intros L N I P. change (p_run a (Note (Some w) e t :: l)) with (p_run (p_step a (Note (Some w) e t)) l). cbn [p_step]. unfold p_play, with_note.
  destruct (Z.leb_spec AUDIO_BUFFER_SIZE (index_of a t)) as [X|_]; [lia|]. cbv zeta. cbn [option_map].
  rewrite (slot_stays l _ (p_next a) 7); cbn [p_slots p_next].
  - rewrite nth_set_same by (rewrite L; exact N). cbn [fst snd]. now rewrite skipn_skipn'.
  - apply Nat.mod_upper_bound. discriminate.
  - lia.
  - exact P.
  - unfold NUM_NOTES in *. clear -N. do 8 (destruct (p_next a) as [|n]; [reflexivity|revert N; generalize n; clear n; intros n N; destruct n as [|n]; [reflexivity|]; try (do 7 (destruct n as [|n]; [reflexivity|])); lia]).
  - split; reflexivity.
Qed.
Example C98_eight_ex : let l := repeat (Note (Some ding) (1, 1%positive) 0) 7 in length (p_slots (p_init 0)) = NUM_NOTES /\ (p_next (p_init 0) < NUM_NOTES)%nat /\ index_of (p_init 0) (-5) < AUDIO_BUFFER_SIZE /\ (plays l <= 7)%nat.
Proof. split; [reflexivity|]. split; [unfold NUM_NOTES; cbn; lia|]. split; [vm_compute; reflexivity|]. apply Nat.leb_le. vm_compute. reflexivity. Qed.

(** A note that goes on after its buffer is heard at the front of that buffer, before its time. *)
Lemma overlay_first e buf v vs : buf <> [] -> nth 0 (overlay e buf (v :: vs)) 0 = mixed e (nth 0 buf 0) v.
Proof. destruct buf; [congruence|reflexivity]. Qed.
Theorem C98_early_refuted t0 w e t : proper (Note (Some w) e t) -> - 2 ^ 63 <= t - (t0 - BUFFER_DURATION_NS) < 2 ^ 63 / SAMPLE_RATE ->
  0 < index_of (p_init t0) t < AUDIO_BUFFER_SIZE -> (size - Z.to_nat (index_of (p_init t0) t) < count w - 1)%nat ->
  exists s, run (start_audio_loop t0) (Callback :: Switch :: ops [Note (Some w) e t; Turn]) = Ok s /\ nth size (s_played s) 0 = mixed e 0 (average w (size - Z.to_nat (index_of (p_init t0) t)))
  /\ nth size (p_out (i_run (p_init t0) [Note (Some w) e t; Turn])) 0 = 0.
Proof.
  intros P T I C. destruct (C98_exact t0 [Note (Some w) e t; Turn]) as (s & R & L); [constructor; [exact P|constructor; [exact Logic.I|constructor]]|cbn [near]; cbn [p_init p_start]; auto|].
  exists s. split; [exact R|]. rewrite L. clear R L. destruct P as [M W]. set (i := Z.to_nat (index_of (p_init t0) t)) in *.
  assert (I1 : (0 < i)%nat) by (unfold i; lia). cbn [p_run i_run fold_left p_step i_step]. unfold p_play, i_play, with_note. destruct (Z.leb_spec AUDIO_BUFFER_SIZE (index_of (p_init t0) t)) as [X|_]; [lia|].
  cbv zeta. fold i. cbn [option_map p_turn i_turn p_out p_slots p_buf p_next p_init]. rewrite <- silence_length at 1 3.
  rewrite !app_nth2 by lia. rewrite !Nat.sub_diag. unfold NUM_NOTES. cbn [repeat set_nth fold_left fst snd]. rewrite !overlay_nil.
  assert (B : forall f, nth 0 (firstn i silence ++ f) 0 = 0 /\ firstn i silence ++ f <> []).
  { intros f. destruct i as [|i]; [lia|]. unfold silence. unfold AUDIO_BUFFER_SIZE. rewrite (eq_refl : Z.to_nat 4410 = S (Z.to_nat 4409)). cbn [repeat firstn app nth]. split; [reflexivity|discriminate]. }
  split; [|apply B]. rewrite (heard_skip w (size - i) W) by (unfold m_of; lia). rewrite overlay_first by apply B. now rewrite (proj1 (B _)).
Qed.
Definition long : waveform := mkWaveform 6000 1 (repeat 100 3000 ++ repeat 200 3000).
Example C98_early_ex : exists s, run (start_audio_loop 0) (Callback :: Switch :: ops [Note (Some long) (1, 1%positive) (-50000000); Turn]) = Ok s
  /\ nth size (s_played s) 0 = 100 /\ nth (size + 2205) (s_played s) 0 = 300 /\ nth (size + 2205) (p_out (i_run (p_init 0) [Note (Some long) (1, 1%positive) (-50000000); Turn])) 0 = 100.
Proof. eexists. split; [vm_compute; reflexivity|]. split; [vm_compute; reflexivity|]. split; vm_compute; reflexivity. Qed.

(** The last frame of a sound is not heard. *)
Theorem C98_last_refuted : let w := mkWaveform 3 1 [100; 200; 300] in
  exists s, run (start_audio_loop 0) (Callback :: Switch :: ops [Turn; Note (Some w) (1, 1%positive) 0; Turn]) = Ok s /\ firstn 4 (skipn (size + size) (s_played s)) = [100; 200; 0; 0]
  /\ firstn 4 (skipn (size + size) (p_out (i_run (p_init 0) [Turn; Note (Some w) (1, 1%positive) 0; Turn]))) = [100; 200; 300; 0].
Proof. eexists. split; [vm_compute; reflexivity|]. split; vm_compute; reflexivity. Qed.

(** An empty sound takes the place of a note that still goes on, with its position: memory outside of the sound is read. *)
Theorem C98_empty_refuted : let short := mkWaveform 1 1 [5] in let empty := mkWaveform 0 1 [] in
  run (start_audio_loop 0) (Callback :: Switch :: ops (Turn :: Note (Some long) (1, 1%positive) 0 :: repeat (Note (Some short) (1, 1%positive) 0) 7 ++ [Note (Some empty) (1, 1%positive) 0; Turn])) = UB.
Proof. vm_compute. reflexivity. Qed.

(** A tick between the hand-over of a buffer and the change to the next one is lost, although the caller is told that it is in time. *)
Theorem C98_gap_refuted s e t s' r : play s None e t = Ok (Some (s', r)) -> switch s' = switch s.
Proof.
  unfold play. destruct (negb (s_ready s)); [discriminate|]. destruct (negb (in_int64 _)); [discriminate|]. cbv zeta. destruct (negb _); [discriminate|]. destruct (_ <=? _); [discriminate|].
  destruct (add_to_sound _ _ _); [|discriminate]. intros [= <- _]. reflexivity.
Qed.
Example C98_gap_ex : exists s s', run (start_audio_loop 0) [Callback; Switch; Callback] = Ok s /\ play s None (1, 1%positive) 1000000 = Ok (Some (s', 0)) /\ nth 44 (s_buf s') 0 = 32765.
Proof. eexists. eexists. split; [vm_compute; reflexivity|]. split; [vm_compute; reflexivity|]. vm_compute. reflexivity. Qed.

(** For a time more than 58 hours ahead, the product overflows. *)
Theorem C98_overflow_refuted s w e t : s_ready s = true -> 209146758205324 <= t - s_start s < 2 ^ 63 -> play s w e t = UB.
Proof.
  intros Rd T. unfold play. rewrite Rd. cbn [negb]. change (2 ^ 63) with 9223372036854775808 in T.
  assert (A : in_int64 (t - s_start s) = true) by (unfold in_int64; change (2 ^ 63) with 9223372036854775808; lia). rewrite A. cbn [negb]. cbv zeta.
  destruct (Z.ltb_spec (t - s_start s) 0) as [X|X]; [lia|]. assert (B : in_int64 ((t - s_start s) * SAMPLE_RATE) = false) by (unfold in_int64, SAMPLE_RATE; change (2 ^ 63) with 9223372036854775808; lia).
  now rewrite B.
Qed.
Example C98_overflow_ex : exists s, run (start_audio_loop 0) [Callback; Switch] = Ok s /\ s_ready s = true /\ 209146758205324 <= 59 * 3600 * BILLION - s_start s < 2 ^ 63.
Proof. eexists. split; [vm_compute; reflexivity|]. split; [reflexivity|]. vm_compute. split; [discriminate|reflexivity]. Qed.

(** A sound with a part of a frame is read outside of its memory. *)
Theorem C98_frames_refuted : run (start_audio_loop 0) (Callback :: Switch :: ops [Turn; Note (Some (mkWaveform 1 2 [7])) (1, 1%positive) 0]) = UB.
Proof. vm_compute. reflexivity. Qed.

Print Assumptions C98_exact.
Print Assumptions C98_heard_partial.
Print Assumptions C98_amplitude.
Print Assumptions C98_time.
Print Assumptions C98_tick.
Print Assumptions C98_ontime.
Print Assumptions C98_eight.
Print Assumptions C98_early_refuted.
Print Assumptions C98_last_refuted.
Print Assumptions C98_empty_refuted.
Print Assumptions C98_gap_refuted.
Print Assumptions C98_overflow_refuted.
Print Assumptions C98_frames_refuted.
