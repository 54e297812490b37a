(** Specification: files in 16-bit linear PCM at 44100 Hz. *)
From Verif Require Import Base WaveFile.
Local Open Scope Z_scope.

Definition byte (b : Z) : Prop := 0 <= b < 256.
Fixpoint le_bytes (n : nat) (x : Z) : list Z := match n with O => [] | S n => x mod 256 :: le_bytes n (x / 256) end.
(** A chunk of a RIFF file: identifier, size, contents, and a byte of padding after an odd number of bytes. *)
Definition chunk (id body : list Z) : list Z :=
  id ++ le_bytes 4 (Z.of_nat (length body)) ++ body ++ (if Z.odd (Z.of_nat (length body)) then [0] else []).
Definition sample_bytes (s : list Z) : list Z := flat_map (fun x => le_bytes 2 (x mod 65536)) s.
(** [total], [rate] and [align] are not used by the reader; [others]: further chunks before
    the samples; [tail]: whatever comes after them. *)
Definition wave_file (total channels rate align : Z) (others : list (list Z * list Z)) (s tail : list Z) : list Z :=
  RIFF ++ le_bytes 4 total ++ WAVE ++
  FMT ++ le_bytes 4 16 ++ le_bytes 2 1 ++ le_bytes 2 channels ++ le_bytes 4 44100 ++ le_bytes 4 rate ++ le_bytes 2 align ++ le_bytes 2 16 ++
  flat_map (fun c => chunk (fst c) (snd c)) others ++ chunk DATA (sample_bytes s) ++ tail.
Definition is_sample (x : Z) : Prop := -32768 <= x < 32768.
(** A further chunk that the reader can skip. *)
Definition skippable (stack : Z) (c : list Z * list Z) : Prop :=
  length (fst c) = 4%nat /\ fst c <> DATA /\ 0 < Z.of_nat (length (snd c)) <= stack /\ Z.of_nat (length (snd c)) < 4294967296 /\ Z.odd (Z.of_nat (length (snd c))) = false.
