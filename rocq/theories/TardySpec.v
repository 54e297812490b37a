(** What the flags and handlers of tardy messages are for. *)
From Verif Require Import Base Tardy.

(** A tardy message has led to a reaction, directly or by way of other reactions. *)
Inductive reached (l : list entry) : nat -> Prop :=
| reached_msg : forall r, In (EMsg r true) l -> reached l r
| reached_by : forall u c d, In (ETrig u c d) l -> reached l u -> reached l d.

(** The same, but a reaction whose STP handler has been invoked does not pass it on. *)
Inductive tardy (l : list entry) : nat -> Prop :=
| tardy_msg : forall r, In (EMsg r true) l -> tardy l r
| tardy_by : forall u c d, In (ETrig u c d) l -> c <> Stp -> tardy l u -> tardy l d.

(** Each reaction has been executed at most once. *)
Definition runs (l : list entry) : list nat :=
  flat_map (fun e => match e with ERun r _ _ => [r] | _ => [] end) l.
Definition executed_once (l : list entry) : Prop := NoDup (runs l).

(** Each reaction has been triggered by messages that are all tardy or all in time, or by
    one other reaction. *)
Definition one_source (l : list entry) : Prop :=
  (forall r b b', In (EMsg r b) l -> In (EMsg r b') l -> b = b') /\
  (forall r b u c, In (EMsg r b) l -> In (ETrig u c r) l -> False) /\
  (forall u c u' c' d, In (ETrig u c d) l -> In (ETrig u' c' d) l -> u = u').

Definition no_missed_deadlines (g : prog) : Prop := forall k r, missed g k r = false.
(** A reaction with an STP handler always goes through the queue. *)
Definition handlers_queued (g : prog) : Prop := forall r, handler g r = true -> last_enabling g r = None.

(** Every reaction is enabled by reactions with smaller numbers only. *)
Definition acyclic (g : prog) : Prop := forall r o d, In d (reacts g r o) -> (r < d)%nat.
