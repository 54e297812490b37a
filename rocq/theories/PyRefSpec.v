(** Specification for C81: what refers to a Python object, and what Python code may rely on. *)
From Verif Require Import Base PyRef.
Open Scope nat_scope.

(** The tokens that ports, actions and events refer to. *)
Definition slots (s : st) : list (option nat) := port s :: act s :: astr s :: queue s.
(** Something refers to object [o]: Python code, or a port, action or event. *)
Definition held (s : st) (o : nat) : Prop :=
  In o (py s) \/ exists i t, In (Some i) (slots s) /\ nth_error (toks s) i = Some t /\ t_val t = Some o.

(** The conditions under which values are safe: the value of a port or action object is read
    only while something still refers to it, and such an object is never given up for good. *)
Definition careful_op (s : st) (x : op) : Prop :=
  match x with
  | ORead k => forall c, nth_error (caps s) k = Some c ->
      match k_val c with CObj o => held s o | CUninit => False | CNone | CNull => True end
  | ODropCap k => forall c, nth_error (caps s) k = Some c -> 2 <= k_rc c
  | _ => True
  end.
Fixpoint careful (s : st) (l : list op) : Prop :=
  match l with
  | [] => True
  | x :: l => careful_op s x /\ forall s', step s x = Ok s' -> careful s' l
  end.

(** Actions are scheduled without values; events may carry values of ports. *)
Definition ports_only (x : op) : Prop := match x with OSched _ (Some _) => False | _ => True end.
(** p[i] is used on multiports only. *)
Definition no_self (x : op) : Prop := match x with OSelf _ => False | _ => True end.

(** The number of events handled. *)
Definition is_pop (x : op) : nat := match x with OPop => 1 | _ => 0 end.
Fixpoint pops (l : list op) : nat := match l with [] => 0 | x :: l => is_pop x + pops l end.
