(** Model of util/audio_loop_mac.c.  The functions lf_play_audio_waveform and add_to_sound are those of Linux (Audio.v), word by
    word.  The audio queue is modelled by what is heard: a buffer is heard with what is in it when the callback for the other
    buffer is called, because it is then the next one to be played. *)
From Verif Require Import Base Audio.
Open Scope Z_scope.
Local Open Scope list_scope.

(** audio_loop_mac.c:68-118 [callback]: the other buffer is cleared and gets what is left of the notes *)
Definition mac_callback (s : state) : res state :=
  match trail (s_notes s) silence with
  | Ok (ns, b) => Ok (mkState true false b (s_start s + BUFFER_DURATION_NS) ns (s_counter s) (s_played s ++ (if s_ready s then s_buf s else [])))
  | UB => UB
  end.
Inductive mac_op := MCallback | MPlay (w : option waveform) (e : volume) (start_time : Z).
(** audio_loop_mac.c:234-309, as Audio.v [play] *)
Definition mac_step (s : state) (o : mac_op) : res state :=
  match o with
  | MCallback => mac_callback s
  | MPlay w e t => match play s w e t with Ok (Some (s', _)) => Ok s' | Ok None => Ok s | UB => UB end
  end.
Fixpoint mac_run (s : state) (l : list mac_op) : res state :=
  match l with [] => Ok s | o :: l => match mac_step s o with Ok s' => mac_run s' l | UB => UB end end.
(** audio_loop_mac.c:190-210 [lf_start_audio_loop]; the thread calls [callback] twice (lines 158-159) *)
Definition mac_start (start_time : Z) : state :=
  mkState false false silence (start_time - 2 * BUFFER_DURATION_NS) (repeat no_note NUM_NOTES) 0 [].
