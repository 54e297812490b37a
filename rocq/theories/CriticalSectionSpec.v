(** What critical sections promise (low_level_platform/api/low_level_platform.h:89-98:
    "disable interrupts with support for nested calls", "enable interrupts after
    potentially multiple calls", both return 0 on success). *)
From Verif Require Import Base CriticalSection.

(** How many sections are open after the calls; [None] if one is closed that is not open. *)
Fixpoint depth (n : nat) (l : list op) : option nat :=
  match l with
  | [] => Some n
  | Enter :: r => depth (S n) r
  | Exit :: r => match n with O => None | S m => depth m r end
  end.

(** The deepest nesting. *)
Fixpoint deepest (n : nat) (l : list op) : nat :=
  match l with
  | [] => n
  | Enter :: r => Nat.max n (deepest (S n) r)
  | Exit :: r => Nat.max n (deepest (pred n) r)
  end.

(** Fewer than 2^31 sections are open at the same time. *)
Definition shallow (l : list op) : Prop := Z.of_nat (deepest 0 l) <= INT_MAX.

(** The atomic reading of an operation: result and new content of the cell. *)
Definition exec (l : list step) (m : Z) : Z * Z :=
  let c := fold_left (fun c s => s c) l (mkCell m 0 0) in (loc c, mem c).

(** Interrupts served one after the other. *)
Definition serve (l : list isr) (m : Z) : Z := fold_left (fun m f => f m) l m.

(** A signed number of [w] bits. *)
Definition fits (w z : Z) : Prop := - 2 ^ (w - 1) <= z < 2 ^ (w - 1).
