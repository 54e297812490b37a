(** Model of util/audio_loop_linux.c: notes that a program plays and the samples that go to the sound card.
    Arithmetic with doubles is exact here: a volume is a fraction (they are exact for fractions with few digits).
    ALSA, its errors and its queue are not modelled: what is handed to it is what is heard. *)
From Verif Require Import Base.
Open Scope Z_scope.
Local Open Scope list_scope.

(** util/audio_loop.h:44-52 *)
Definition SAMPLE_RATE : Z := 44100.
Definition AUDIO_BUFFER_SIZE : Z := 4410.
Definition BUFFER_DURATION_NS : Z := 100000000.
Definition MAX_AMPLITUDE : Z := 32765.
Definition NUM_NOTES : nat := 8.
Definition BILLION : Z := 1000000000.

Definition in_int (z : Z) : bool := (- 2 ^ 31 <=? z) && (z <? 2 ^ 31).
Definition in_int64 (z : Z) : bool := (- 2 ^ 63 <=? z) && (z <? 2 ^ 63).

(** util/wave_file_reader.h [lf_waveform_t]; [w_samples] is the memory behind [waveform] *)
Record waveform := mkWaveform { w_length : Z; w_channels : Z; w_samples : list Z }.
Definition volume : Type := Z * positive.

(** audio_loop_linux.c:62-70 [add_to_sound]: [b] is what is in the buffer, the value is [v] times [e]; the conversion to int
    cuts off the fraction and is undefined if the result is not an int. *)
Definition clip (z : Z) : Z := if MAX_AMPLITUDE <? z then MAX_AMPLITUDE else if z <? - MAX_AMPLITUDE then - MAX_AMPLITUDE else z.
Definition add_to_sound (b v : Z) (e : volume) : res Z :=
  let s := Z.quot (b * Zpos (snd e) + v * fst e) (Zpos (snd e)) in
  if in_int s then Ok (clip s) else UB.

(** Lines 102-107 and 351-356: the average of the channels at a position *)
Definition frame (w : waveform) (p : Z) : res Z :=
  if w_channels w =? 0 then UB
  else
    let l := firstn (Z.to_nat (w_channels w)) (skipn (Z.to_nat p) (w_samples w)) in
    if Z.of_nat (length l) =? w_channels w then Ok (Z.quot (fold_right Z.add 0 l) (w_channels w)) else UB.

(** Lines 97-118 and 349-366: a note in the rest of a buffer; the position afterwards, or None at the end of the note.
    [length - num_channels] is computed without sign. *)
Fixpoint fill (w : waveform) (e : volume) (buf : list Z) (p : Z) : res (list Z * option Z) :=
  match buf with
  | [] => Ok ([], Some p)
  | b :: rest =>
      match frame w p with
      | UB => UB
      | Ok v =>
          match add_to_sound b v e with
          | UB => UB
          | Ok b' =>
              let p' := p + w_channels w in
              if 2 ^ 31 <=? p' then UB
              else if (w_length w - w_channels w) mod 2 ^ 32 <=? p' then Ok (b' :: rest, None)
              else match fill w e rest p' with Ok (r, q) => Ok (b' :: r, q) | UB => UB end
          end
      end
  end.

(** Lines 40-44 [struct note] *)
Record note := mkNote { n_wave : option waveform; n_pos : Z; n_vol : volume }.
Definition no_note : note := mkNote None 0 (0, 1%positive).

(** [s_buf] is what next_buffer points to; [s_ready]: it is not NULL; [s_sent]: its samples have already been handed over;
    [s_played]: the samples handed over so far. *)
Record state := mkState { s_ready : bool; s_sent : bool; s_buf : list Z; s_start : Z; s_notes : list note; s_counter : nat; s_played : list Z }.
Definition silence : list Z := repeat 0 (Z.to_nat AUDIO_BUFFER_SIZE).
(** Lines 272-293 [lf_start_audio_loop], 221-222 *)
Definition start_audio_loop (start_time : Z) : state :=
  mkState false false silence (start_time - 2 * BUFFER_DURATION_NS) (repeat no_note NUM_NOTES) 0 [].

(** Lines 92-119 *)
Fixpoint trail (notes : list note) (buf : list Z) : res (list note * list Z) :=
  match notes with
  | [] => Ok ([], buf)
  | n :: rest =>
      match n_wave n with
      | Some w =>
          if fst (n_vol n) =? 0 then match trail rest buf with Ok (ns, b) => Ok (n :: ns, b) | UB => UB end
          else
            match fill w (n_vol n) buf (n_pos n) with
            | UB => UB
            | Ok (buf', q) =>
                let n' := match q with Some p => mkNote (Some w) p (n_vol n) | None => no_note end in
                match trail rest buf' with Ok (ns, b) => Ok (n' :: ns, b) | UB => UB end
            end
      | None => match trail rest buf with Ok (ns, b) => Ok (n :: ns, b) | UB => UB end
      end
  end.
(** Lines 81-131 [callback] *)
Definition callback (s : state) : res state :=
  match trail (s_notes s) (s_buf s) with
  | Ok (ns, b) => Ok (mkState true true b (s_start s + BUFFER_DURATION_NS) ns (s_counter s) (s_played s ++ b))
  | UB => UB
  end.
(** Lines 254-261: the loop goes on to the next, cleared, part of its array *)
Definition switch (s : state) : state := mkState (s_ready s) false silence (s_start s) (s_notes s) (s_counter s) (s_played s).

Fixpoint set_nth {A} (i : nat) (x : A) (l : list A) : list A :=
  match l, i with [], _ => [] | _ :: l, O => x :: l | y :: l, S i => y :: set_nth i x l end.

(** Lines 296-371 [lf_play_audio_waveform]: None if the caller waits for the next callback, after which it tries again. *)
Definition play (s : state) (w : option waveform) (e : volume) (start_time : Z) : res (option (state * Z)) :=
  if negb (s_ready s) then Ok None
  else if negb (in_int64 (start_time - s_start s)) then UB
  else
    let late := start_time - s_start s <? 0 in
    let offset := if late then 0 else start_time - s_start s in
    let result := if late then 1 else 0 in
    if negb (in_int64 (offset * SAMPLE_RATE)) then UB
    else
      let index := offset * SAMPLE_RATE / BILLION in
      if AUDIO_BUFFER_SIZE <=? index then Ok None
      else
        let i := Z.to_nat index in
        match w with
        | None =>
            match add_to_sound (nth i (s_buf s) 0) MAX_AMPLITUDE e with
            | Ok b => Ok (Some (mkState (s_ready s) (s_sent s) (set_nth i b (s_buf s)) (s_start s) (s_notes s) (s_counter s) (s_played s), result))
            | UB => UB
            end
        | Some w =>
            let slot := s_counter s in
            let counter := if Nat.leb NUM_NOTES (S slot) then O else S slot in
            if 0 <? w_length w then
              match fill w e (skipn i (s_buf s)) 0 with
              | UB => UB
              | Ok (b, q) =>
                  let n := match q with Some p => mkNote (Some w) p e | None => mkNote (Some w) 0 (0, 1%positive) end in
                  Ok (Some (mkState (s_ready s) (s_sent s) (firstn i (s_buf s) ++ b) (s_start s) (set_nth slot n (s_notes s)) counter (s_played s), result))
              end
            else
              let old := nth slot (s_notes s) no_note in
              Ok (Some (mkState (s_ready s) (s_sent s) (s_buf s) (s_start s) (set_nth slot (mkNote (Some w) (n_pos old) (n_vol old)) (s_notes s)) counter (s_played s), result))
        end.

(** Histories: the loop hands a buffer over, goes on to the next one; the program plays, or waits. *)
Inductive op := Callback | Switch | Play (w : option waveform) (e : volume) (start_time : Z).
Definition step (s : state) (o : op) : res state :=
  match o with
  | Callback => callback s
  | Switch => Ok (switch s)
  | Play w e t => match play s w e t with Ok (Some (s', _)) => Ok s' | Ok None => Ok s | UB => UB end
  end.
Fixpoint run (s : state) (l : list op) : res state :=
  match l with [] => Ok s | o :: l => match step s o with Ok s' => run s' l | UB => UB end end.
