(** What should be heard on macOS (C100): the player as it should be of AudioSpec.v, from the first buffer on. *)
From Verif Require Import Base Audio AudioSpec AudioMac.
Open Scope Z_scope.
Local Open Scope list_scope.

Definition mac_init (start_time : Z) : player :=
  mkPlayer silence (start_time - BUFFER_DURATION_NS) (repeat ((0, 1%positive), []) NUM_NOTES) 0 [].
Definition mac_ops (l : list event) : list mac_op := map (fun o => match o with Turn => MCallback | Note w e t => MPlay w e t end) l.
(** No time is more than 58 hours ahead of the buffer or out of the range of 64 bits. *)
Fixpoint mac_near (a : player) (l : list event) : Prop :=
  match l with
  | [] => True
  | o :: l => match o with Turn => True | Note _ _ t => - 2 ^ 63 <= t - p_start a < 2 ^ 63 / SAMPLE_RATE end /\ mac_near (i_step a o) l
  end.
(** Sounds that end in silence. *)
Definition fading (o : event) : Prop := match o with Note (Some w) _ _ => quiet_end w | _ => True end.
