(** What a user of watchdogs knows: the calls, and when the handler is invoked. *)
From Verif Require Import Base Tag Watchdog.

(** The expiration that is requested after the given events: the one of the last start,
    unless it was stopped or the handler was invoked since. *)
Definition request (es : list event) : option Z :=
  fold_left (fun r e => match e with Started x => Some x | Stopped | Fired _ _ | Terminated => None | HandlerDone => r end) es None.

Definition over (es : list event) : Prop := In Terminated es.

Inductive exec (allowed : list event -> op -> Prop) (s0 : state) : state -> list event -> Prop :=
| exec_start : exec allowed s0 s0 []
| exec_step s es o s' es' : exec allowed s0 s es -> allowed es o -> step s o = Done s' es' -> exec allowed s0 s' (es ++ es').

(** Logical times are positive and the minimum expiration is not negative. *)
Definition proper (es : list event) (o : op) : Prop :=
  match o with Start c m x | HandlerStart c m x => 0 < c /\ 0 <= m /\ in_int64 x | _ => True end.

(** A watchdog that is waiting is only restarted with a later expiration, it is not started
    by its own handler, and not after it has been terminated. *)
Definition feeding (es : list event) (o : op) : Prop :=
  proper es o /\
  match o with
  | Start c m x => ~ over es /\ match request es with Some e => e <= c + m + x | None => True end
  | HandlerStart _ _ _ => False
  | _ => True
  end.
