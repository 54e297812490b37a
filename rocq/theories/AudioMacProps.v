(** C100: sounds that a program plays on macOS. *)
From Verif Require Import Base Audio AudioSpec AudioProofs AudioMac AudioMacSpec AudioMacProofs.
Open Scope Z_scope.
Local Open Scope list_scope.

Lemma mac_run_app l1 : forall l2 s, mac_run s (l1 ++ l2) = match mac_run s l1 with Ok s' => mac_run s' l2 | UB => UB end.
Proof. induction l1 as [|o l1 IH]; intros l2 s; [reflexivity|]. cbn [app mac_run]. destruct (mac_step s o); [apply IH|reflexivity]. Qed.
Lemma mac_started t0 l : Forall proper l -> mac_near (mac_init t0) l -> exists s, mac_run (mac_start t0) (MCallback :: mac_ops l) = Ok s /\ sim s (h_run (mac_init t0) l).
Proof.
  intros P N. destruct (mac_begin t0) as (s0 & R & S0). destruct (mac_simulation l s0 _ S0 P (near_same l _ _ eq_refl N)) as (s & R1 & S1). exists s. split; [|exact S1].
  change (MCallback :: mac_ops l) with ([MCallback] ++ mac_ops l). rewrite mac_run_app, R. exact R1.
Qed.

(** Sounds that end in silence are heard as they should be: each at its time, added to the others, and without a gap where a buffer ends
    and the next one begins.  Missing: the last frame of a sound ([C100_last_refuted]). *)
Theorem C100_heard_partial t0 l : Forall proper l -> mac_near (mac_init t0) l -> Forall fading l ->
  exists s, mac_run (mac_start t0) (MCallback :: mac_ops l) = Ok s /\ s_played s = p_out (i_run (mac_init t0) l).
Proof.
  intros P N F. destruct (mac_started t0 l P N) as (s & R & (_ & _ & _ & _ & _ & _ & _ & _ & _ & _ & L & _)). exists s. split; [exact R|]. rewrite L. symmetry. apply close_run; auto.
  unfold close, mac_init. cbn [p_buf p_start p_slots p_next p_out]. split; [reflexivity|]. split; [reflexivity|]. split; [reflexivity|]. split; [reflexivity|]. split; [|exact silence_bounded].
  generalize NUM_NOTES. intros n. induction n as [|n IH]; cbn [repeat]; constructor; [split; [reflexivity|now left]|exact IH].
Qed.
(** A sound that begins 2 frames before the end of a buffer. *)
Definition bell : waveform := mkWaveform 5 1 [100; 200; 300; 400; 0].
Definition tune : list event := [Turn; Note (Some bell) (1, 1%positive) 99954700; Turn; Turn].
Lemma bell_whole : whole bell.
Proof. unfold whole, bell. cbn. repeat split; try lia; [now exists 5|]. repeat constructor; lia. Qed.
Example C100_ex : Forall proper tune /\ mac_near (mac_init 0) tune /\ Forall fading tune /\ firstn 6 (skipn (size + size - 3) (p_out (i_run (mac_init 0) tune))) = [0; 100; 200; 300; 400; 0].
Proof.
  split; [|split; [|split; [|vm_compute; reflexivity]]].
  - unfold tune. repeat constructor; cbn; unfold modest; cbn; try lia; apply bell_whole.
  - unfold tune. cbn [mac_near]. repeat split; vm_compute; try reflexivity; discriminate.
  - unfold tune. constructor; [exact I|]. constructor; [right; vm_compute; reflexivity|]. constructor; [exact I|]. constructor; [exact I|constructor].
Qed.

(** No history whatever makes an amplitude that is too large. *)
Theorem C100_amplitude t0 l s : mac_run (mac_start t0) l = Ok s -> Forall bounded (s_played s).
Proof. intros R. refine (proj2 (mac_run_tame l _ _ _ R)). split; [exact silence_bounded|constructor]. Qed.
Example C100_amplitude_ex :
  exists s, mac_run (mac_start 0) (MCallback :: mac_ops [Turn; Note None (3, 1%positive) 5; Note None (3, 1%positive) 5; Turn]) = Ok s /\ nth size (s_played s) 0 = 32765.
Proof. eexists. split; [vm_compute; reflexivity|]. vm_compute. reflexivity. Qed.

Lemma mac_start_turns l : forall a, p_start (h_run a l) = p_start a + Z.of_nat (turns l) * BUFFER_DURATION_NS.
Proof.
  induction l as [|o l IH]; intros a; [cbn [h_run fold_left turns filter length]; lia|]. change (h_run a (o :: l)) with (h_run (h_step a o) l). rewrite IH.
  destruct o as [|w e t]; cbn [h_step].
  - change (turns (Turn :: l)) with (S (turns l)). cbn [i_turn p_start]. lia.
  - change (turns (Note w e t :: l)) with (turns l). f_equal. unfold p_play, with_note. destruct (_ <=? _); [reflexivity|]. cbv zeta. now destruct w.
Qed.
(** The caller waits exactly if the time is after the buffer being filled, and is told exactly if it is before. *)
Theorem C100_time t0 l w e t : Forall proper (l ++ [Note w e t]) -> mac_near (mac_init t0) l ->
  - 2 ^ 63 <= t - (t0 + (Z.of_nat (turns l) - 1) * BUFFER_DURATION_NS) < 2 ^ 63 / SAMPLE_RATE ->
  exists s r, mac_run (mac_start t0) (MCallback :: mac_ops l) = Ok s /\ play s w e t = Ok r
  /\ (r = None <-> t0 + Z.of_nat (turns l) * BUFFER_DURATION_NS <= t)
  /\ (forall s' k, r = Some (s', k) -> (k = 1 /\ t < t0 + (Z.of_nat (turns l) - 1) * BUFFER_DURATION_NS) \/ (k = 0 /\ t0 + (Z.of_nat (turns l) - 1) * BUFFER_DURATION_NS <= t)).
Proof.
  intros P N T. apply Forall_app in P. destruct P as [P P1]. inversion P1 as [|? ? P2 _]; subst. destruct (mac_started t0 l P N) as (s & R & S1).
  pose proof (mac_start_turns l (mac_init t0)) as St. cbn [mac_init p_start] in St. replace (t0 - BUFFER_DURATION_NS + Z.of_nat (turns l) * BUFFER_DURATION_NS) with (t0 + (Z.of_nat (turns l) - 1) * BUFFER_DURATION_NS) in St by lia.
  fold (mac_init t0) in *. set (a := h_run (mac_init t0) l) in *. rewrite <- St in *.
  destruct (sim_play s _ w e t S1 P2 T) as (r & Pl & A & B & _). exists s, r. split; [exact R|]. split; [exact Pl|].
  assert (Q : AUDIO_BUFFER_SIZE <= index_of a t <-> t0 + Z.of_nat (turns l) * BUFFER_DURATION_NS <= t).
  { replace (t0 + Z.of_nat (turns l) * BUFFER_DURATION_NS) with (p_start a + BUFFER_DURATION_NS) by (rewrite St; lia).
    unfold index_of. set (o := Z.max 0 (t - _)). assert (O1 : BUFFER_DURATION_NS <= o <-> p_start a + BUFFER_DURATION_NS <= t) by (unfold o, BUFFER_DURATION_NS; lia).
    rewrite <- O1. unfold AUDIO_BUFFER_SIZE, BUFFER_DURATION_NS, SAMPLE_RATE, BILLION. Z.div_mod_to_equations. lia. }
  split.
  - rewrite <- Q. split; [|exact A]. intros ->. destruct (Z.le_gt_cases AUDIO_BUFFER_SIZE (index_of a t)) as [X|X]; [exact X|]. destruct (B X) as (s' & Y). discriminate.
  - intros s' k ->. destruct (Z.le_gt_cases AUDIO_BUFFER_SIZE (index_of a t)) as [X|X]; [specialize (A X); discriminate|]. destruct (B X) as (s2 & Y). injection Y as _ ->.
    destruct (Z.ltb_spec t (p_start a)); [left|right]; auto.
Qed.
Example C100_time_ex : exists s, mac_run (mac_start 0) (MCallback :: mac_ops [Turn; Turn]) = Ok s /\ (exists s', play s None (1, 1%positive) 99999999 = Ok (Some (s', 1))) /\ (exists s', play s None (1, 1%positive) 199999999 = Ok (Some (s', 0)))
  /\ play s None (1, 1%positive) 200000000 = Ok None.
Proof. eexists. split; [vm_compute; reflexivity|]. split; [eexists; vm_compute; reflexivity|]. split; [eexists; vm_compute; reflexivity|]. vm_compute; reflexivity. Qed.

(** The last frame of a sound is not heard. *)
Theorem C100_last_refuted : let w := mkWaveform 3 1 [100; 200; 300] in
  exists s, mac_run (mac_start 0) (MCallback :: mac_ops [Turn; Note (Some w) (1, 1%positive) 0; Turn]) = Ok s /\ firstn 4 (skipn size (s_played s)) = [100; 200; 0; 0]
  /\ firstn 4 (skipn size (p_out (i_run (mac_init 0) [Turn; Note (Some w) (1, 1%positive) 0; Turn]))) = [100; 200; 300; 0].
Proof. eexists. split; [vm_compute; reflexivity|]. split; vm_compute; reflexivity. Qed.

(** An empty sound takes the place of a note that still goes on, with its position: memory outside of the sound is read. *)
Theorem C100_empty_refuted : let long := mkWaveform 6000 1 (repeat 9 6000) in let short := mkWaveform 1 1 [5] in let empty := mkWaveform 0 1 [] in
  mac_run (mac_start 0) (MCallback :: mac_ops (Turn :: Note (Some long) (1, 1%positive) 0 :: repeat (Note (Some short) (1, 1%positive) 0) 7 ++ [Note (Some empty) (1, 1%positive) 0; Turn])) = UB.
Proof. vm_compute. reflexivity. Qed.

Print Assumptions C100_heard_partial.
Print Assumptions C100_amplitude.
Print Assumptions C100_time.
Print Assumptions C100_last_refuted.
Print Assumptions C100_empty_refuted.
