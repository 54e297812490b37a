(** What should be heard and what is heard (C98). *)
From Verif Require Import Base Audio.
Open Scope Z_scope.
Local Open Scope list_scope.

(** An amplitude that the sound card can play without distortion. *)
Definition bounded (z : Z) : Prop := - MAX_AMPLITUDE <= z <= MAX_AMPLITUDE.
(** A sound file as the reader makes it: whole frames of samples of 16 bits. *)
Definition whole (w : waveform) : Prop :=
  0 < w_channels w < 2 ^ 16 /\ w_length w = Z.of_nat (length (w_samples w)) /\ 0 < w_length w < 2 ^ 31
  /\ (w_channels w | w_length w) /\ Forall (fun x => -32768 <= x <= 32767) (w_samples w).
(** A volume for which no amplitude leaves the range of int. *)
Definition modest (e : volume) : Prop := Z.abs (fst e) <= 60000 * Zpos (snd e).

(** The frames of a sound: the averages of the channels. *)
Definition count (w : waveform) : nat := Z.to_nat (w_length w / w_channels w).
Definition average (w : waveform) (j : nat) : Z :=
  let c := Z.to_nat (w_channels w) in Z.quot (fold_right Z.add 0 (firstn c (skipn (j * c) (w_samples w)))) (w_channels w).
Definition frames (w : waveform) : list Z := map (average w) (seq 0 (count w)).
(** All frames but the last (but at least one). *)
Definition heard (w : waveform) : list Z := firstn (Nat.max 1 (count w - 1)) (frames w).

(** Samples added to those of a buffer, limited to the largest amplitude. *)
Definition mixed (e : volume) (b v : Z) : Z :=
  Z.max (- MAX_AMPLITUDE) (Z.min MAX_AMPLITUDE (Z.quot (b * Zpos (snd e) + v * fst e) (Zpos (snd e)))).
Fixpoint overlay (e : volume) (buf vs : list Z) : list Z :=
  match buf, vs with b :: buf, v :: vs => mixed e b v :: overlay e buf vs | _, _ => buf end.

(** A player in terms of sounds; every place for a note holds the volume and the frames that have still to follow: the buffer to be handed over next, what is to follow for each note, what has been handed over. *)
Record player := mkPlayer { p_buf : list Z; p_start : Z; p_slots : list (volume * list Z); p_next : nat; p_out : list Z }.
Definition size : nat := Z.to_nat AUDIO_BUFFER_SIZE.
(** The end of a buffer as it should be: the buffer is handed over, and what is left of the notes goes to the front of the next. *)
Definition i_turn (a : player) : player :=
  mkPlayer (fold_left (fun b s => overlay (fst s) b (snd s)) (p_slots a) silence) (p_start a + BUFFER_DURATION_NS)
    (map (fun s => (fst s, skipn size (snd s))) (p_slots a)) (p_next a) (p_out a ++ p_buf a).
(** The end of a buffer as it is: what is left of the notes goes to the front of the buffer that is being handed over, also if they
    begin in it. *)
Definition p_turn (a : player) : player :=
  mkPlayer silence (p_start a + BUFFER_DURATION_NS) (map (fun s => (fst s, skipn size (snd s))) (p_slots a)) (p_next a)
    (p_out a ++ fold_left (fun b s => overlay (fst s) b (snd s)) (p_slots a) (p_buf a)).
(** The index of a time in the buffer; times that have passed are now. *)
Definition index_of (a : player) (t : Z) : Z := Z.max 0 (t - p_start a) * SAMPLE_RATE / BILLION.
(** A note, of which the frames [f] are heard. *)
Definition with_note (a : player) (w : option (list Z)) (e : volume) (t : Z) : player :=
  if AUDIO_BUFFER_SIZE <=? index_of a t then a
  else
    let i := Z.to_nat (index_of a t) in
    match w with
    | None => mkPlayer (firstn i (p_buf a) ++ overlay e (skipn i (p_buf a)) [MAX_AMPLITUDE]) (p_start a) (p_slots a) (p_next a) (p_out a)
    | Some f => mkPlayer (firstn i (p_buf a) ++ overlay e (skipn i (p_buf a)) f) (p_start a)
                  (set_nth (p_next a) (e, skipn (size - i) f) (p_slots a)) (S (p_next a) mod NUM_NOTES) (p_out a)
    end.
(** As it should be all frames are heard, as it is the last one is not. *)
Definition i_play (a : player) (w : option waveform) (e : volume) (t : Z) : player := with_note a (option_map frames w) e t.
Definition p_play (a : player) (w : option waveform) (e : volume) (t : Z) : player := with_note a (option_map heard w) e t.
Inductive event := Turn | Note (w : option waveform) (e : volume) (t : Z).
Definition p_step (a : player) (o : event) : player := match o with Turn => p_turn a | Note w e t => p_play a w e t end.
Definition i_step (a : player) (o : event) : player := match o with Turn => i_turn a | Note w e t => i_play a w e t end.
Definition i_run (a : player) (l : list event) : player := fold_left i_step l a.
Definition p_run (a : player) (l : list event) : player := fold_left p_step l a.
Definition p_init (start_time : Z) : player :=
  mkPlayer silence (start_time - BUFFER_DURATION_NS) (repeat ((0, 1%positive), []) NUM_NOTES) 0 silence.

(** The same history of the program, where nothing is played between the hand-over of a buffer and the change to the next one.
    The first buffer is handed over before anything is played. *)
Definition ops (l : list event) : list op :=
  flat_map (fun o => match o with Turn => [Callback; Switch] | Note w e t => [Play w e t] end) l.
Definition proper (o : event) : Prop :=
  match o with Turn => True | Note w e t => modest e /\ match w with Some w => whole w | None => True end end.
(** No time is more than 58 hours ahead of the buffer or out of the range of 64 bits. *)
Fixpoint near (a : player) (l : list event) : Prop :=
  match l with
  | [] => True
  | o :: l => match o with Turn => True | Note _ _ t => - 2 ^ 63 <= t - p_start a < 2 ^ 63 / SAMPLE_RATE end /\ near (p_step a o) l
  end.
Definition plays (l : list event) : nat := length (filter (fun o => match o with Note (Some _) _ _ => true | _ => false end) l).
Definition turns (l : list event) : nat := length (filter (fun o => match o with Turn => true | _ => false end) l).
(** Sounds that end in silence. *)
Definition quiet_end (w : waveform) : Prop := count w = 1%nat \/ average w (count w - 1) = 0.
(** Every note ends in the buffer in which it begins. *)
Fixpoint fitting (a : player) (l : list event) : Prop :=
  match l with
  | [] => True
  | o :: l =>
      match o with
      | Note (Some w) _ t => quiet_end w /\ (index_of a t < AUDIO_BUFFER_SIZE -> Z.of_nat (count w) <= AUDIO_BUFFER_SIZE - index_of a t)
      | _ => True
      end /\ fitting (i_step a o) l
  end.
