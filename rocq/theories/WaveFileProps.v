(** * C92: wave files are read back as they were written *)
From Verif Require Import Base WaveFile WaveFileSpec WaveFileProofs.
Local Open Scope Z_scope.

(** Every file in the supported format is read back: the number of samples, the number of
    channels and all samples, without a warning, whatever further chunks come before the
    samples and whatever comes after them.  The further chunks must not be empty, have an
    even number of bytes and fit on the stack. *)
Theorem C92_roundtrip_partial : forall stack mem total channels rate align others s tail,
  0 <= channels < 65536 -> Forall (skippable stack) others -> Forall is_sample s -> 2 * Z.of_nat (length s) < 4294967296 -> 2 * Z.of_nat (length s) <= mem ->
  read_wave stack mem (wave_file total channels rate align others s tail) = Wave (mkWave (Z.of_nat (length s)) channels (map Some s) false).
Proof. exact roundtrip. Qed.
Print Assumptions C92_roundtrip_partial.

(** The reader comes to an end for every file. *)
Theorem C92_ends : forall stack mem f, read_wave stack mem f <> Fuel.
Proof. exact ends. Qed.
Print Assumptions C92_ends.

(** For every file, the array of samples has the length that is reported. *)
Theorem C92_fits : forall stack mem f w, Forall byte f -> read_wave stack mem f = Wave w -> Z.of_nat (length (w_samples w)) = w_length w.
Proof. exact fits. Qed.
Print Assumptions C92_fits.

(** ** What the documentation (wave_file_reader.h:52-67) promises and the reader does not do *)

Ltac bytes := repeat (apply Forall_cons; [unfold byte; lia|]); apply Forall_nil.
(** "NULL if the file ... has an unsupported format": NULL is returned for no file that can
    be opened; for one that is not even a wave file samples are returned. *)
Theorem C92_unsupported_refuted :
  (forall stack mem f, read_wave stack mem f <> NoFile) /\
  exists f, Forall byte f /\ sub f 0 4 <> RIFF /\ read_wave 1000 1000 f = Wave (mkWave 1 257 [Some 513] true).
Proof.
  split; [exact never_null|]. exists (repeat 1 36 ++ DATA ++ [2; 0; 0; 0; 1; 2])%list.
  split; [cbn [repeat app DATA]; bytes|]. split; [discriminate|]. vm_compute. reflexivity.
Qed.
Print Assumptions C92_unsupported_refuted.

(** A file of less than 44 bytes: bytes that were never read are used. *)
Theorem C92_short_refuted : forall stack mem f, (length f < 44)%nat -> read_wave stack mem f = Uninit.
Proof. intros stack mem f L. unfold read_wave. apply Nat.ltb_lt in L. rewrite L. reflexivity. Qed.
Print Assumptions C92_short_refuted.

(** A chunk with an odd number of bytes, which the format pads with a byte: the padding is
    not skipped, the next header is read at the wrong place, and the samples are lost. *)
Definition JUNK : list Z := [74; 85; 78; 75].
Theorem C92_padding_refuted : read_wave 8388608 1000000 (wave_file 0 1 88200 2 [(JUNK, [7; 7; 7])] [1; 2; 3] []) = Wave (mkWave 816 1 (repeat (Some 0) 816) false).
Proof. vm_compute. reflexivity. Qed.
Print Assumptions C92_padding_refuted.

(** An empty chunk, which the format allows: an array of length 0. *)
Theorem C92_empty_refuted : forall stack mem total channels rate align s tail, read_wave stack mem (wave_file total channels rate align [(JUNK, [])] s tail) = ZeroArray.
Proof. intros. reflexivity. Qed.
Print Assumptions C92_empty_refuted.

(** A file of 52 bytes can exhaust a stack of any size below 4 GB: the size of the array is
    taken from the file before it is known that the file has as many bytes. *)
Theorem C92_stack_refuted : exists f, Forall byte f /\ length f = 52%nat /\ supported f = true /\ forall stack mem, stack < 4294967295 -> read_wave stack mem f = StackOverflow.
Proof.
  exists (firstn 36 (wave_file 0 1 88200 2 [] [] []) ++ JUNK ++ [255; 255; 255; 255] ++ repeat 0 8)%list.
  split; [match goal with |- Forall byte ?l => let v := eval vm_compute in l in change (Forall byte v) end; bytes|]. split; [reflexivity|]. split; [reflexivity|]. intros stack mem L.
  unfold read_wave. match goal with |- context [(?n <? 44)%nat] => change (n <? 44)%nat with false end. cbn [find_data].
  match goal with |- context [same ?a DATA] => change (same a DATA) with false end.
  match goal with |- context [le ?a =? 0] => change (le a) with 4294967295 end. cbn [Z.eqb].
  destruct (Z.ltb_spec stack 4294967295); [reflexivity|lia].
Qed.
Print Assumptions C92_stack_refuted.

(** A file that ends within a sample: the contents of the array are not all defined. *)
Theorem C92_cut_refuted : read_wave 1000 1000 (firstn 47 (wave_file 0 1 88200 2 [] [1; 2; 3] [])) = Wave (mkWave 3 1 [Some 1; None; Some 0] false).
Proof. vm_compute. reflexivity. Qed.
Print Assumptions C92_cut_refuted.

(** "The length is ... a multiple of the number of channels": not checked. *)
Theorem C92_multiple_refuted : exists s, exists w, read_wave 1000 1000 (wave_file 0 2 176400 4 [] s []) = Wave w /\ w_length w mod w_channels w <> 0 /\ w_warned w = false.
Proof. exists [1; 2; 3]. eexists. split; [vm_compute; reflexivity|]. split; [discriminate|reflexivity]. Qed.
Print Assumptions C92_multiple_refuted.

(** Files are never closed: when [limit] files can be open, the reader works [limit] times. *)
Theorem C92_leak_refuted : forall stack mem limit fs k, (limit <= k)%nat -> (k < length fs)%nat -> nth_error (read_all stack mem limit 0 fs) k = Some NoFile.
Proof. intros stack mem limit fs k H L. apply limit_reached; lia. Qed.
Print Assumptions C92_leak_refuted.

(** ** The hypotheses can be met *)
Definition stereo : list Z := wave_file 62 2 176400 4 [(JUNK, [1; 2; 3; 4]); (FMT, [9; 9])] [0; 32767; -32768; -1] [42].
Example C92_stereo : read_wave 8388608 1000000 stereo = Wave (mkWave 4 2 [Some 0; Some 32767; Some (-32768); Some (-1)] false) /\
  Forall (skippable 8388608) [(JUNK, [1; 2; 3; 4]); (FMT, [9; 9])] /\ Forall is_sample [0; 32767; -32768; -1] /\ length stereo = 75%nat.
Proof.
  split; [vm_compute; reflexivity|]. split.
  - repeat (apply Forall_cons; [repeat split; try discriminate; try reflexivity|]). apply Forall_nil.
  - split; [|reflexivity]. repeat (apply Forall_cons; [unfold is_sample; lia|]). apply Forall_nil.
Qed.
