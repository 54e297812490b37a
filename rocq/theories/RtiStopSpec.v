(** Executions of a federation that stops. *)
From Verif Require Import Base Tag TagSpec RtiStop.

(** Microsteps do not reach the largest number; the federates are numbered 0, ..., n - 1. *)
Definition allowed (n : nat) (o : op) : Prop :=
  match o with
  | Tick i t => (i < n)%nat /\ 0 <= tmicro t < UINT_MAX
  | Call i | Collect i | SendReq i | Listen i | Answer i | SendRep i | Leave i | Handle i => (i < n)%nat
  end.

Inductive exec (n : nat) (start : tag) (stops : nat -> tag) : state -> list event -> Prop :=
| exec_start : exec n start stops (init start stops) []
| exec_step s es o s' es' : exec n start stops s es -> allowed n o -> step n s o = Some (s', es') -> exec n start stops s' (es ++ es').

(** What may follow a state *)
Inductive later (n : nat) (s : state) (es : list event) : state -> list event -> Prop :=
| later_refl : later n s es s es
| later_step s1 es1 o s' es' : later n s es s1 es1 -> allowed n o -> step n s1 o = Some (s', es') -> later n s es s' (es1 ++ es').

(** How often the stop tag was sent to a federate *)
Definition grants_to (i : nat) (es : list event) : nat :=
  length (filter (fun e => match e with GrantSent j _ => Nat.eqb j i | _ => false end) es).

Definition lesser (a b : tag) : tag := if tag_compare a b <? 0 then a else b.
