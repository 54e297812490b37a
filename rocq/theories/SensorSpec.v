(** Specification of the sensor simulator. *)
From Verif Require Import Base Sensor.
Local Open Scope Z_scope.

(** What is to be shown: the texts of calls to print and show a tick, in order. *)
Fixpoint posted (l : list op) : list message :=
  match l with [] => [] | Print t _ :: l => Line t :: posted l | ShowTick t :: l => Tick t :: posted l | _ :: l => posted l end.
Definition content (x : shown) : message := match x with LineAt t _ => Line t | TickAt t _ _ => Tick t end.
(** Between start and end; texts have no percent signs, and with a log file formats have no conversions. *)
Definition plain (log : bool) (o : op) : Prop :=
  match o with
  | Start _ | Finish => False
  | Print t args => ~ In 37 t /\ (log = true -> args = false)
  | ShowTick t => ~ In 37 t
  | _ => True
  end.
(** Inside the border of the window. *)
Definition inside (c : config) (x : shown) : Prop :=
  match x with LineAt _ y => 0 <= y <= print_h c - 2 | TickAt _ x y => 1 <= x <= tick_w c - 2 /\ 1 <= y <= tick_h c - 2 end.
(** The keys that can be registered, and the action that was registered first for a key. *)
Definition supported (key : Z) : Prop := key = 10 \/ key = 0 \/ 32 <= key <= 127.
Fixpoint first (key : Z) (rs : list (Z * option nat)) : option nat :=
  match rs with [] => None | (k, Some a) :: rs => if k =? key then Some a else first key rs | _ :: rs => first key rs end.
Definition option_list {A} (o : option A) : list A := match o with Some a => [a] | None => [] end.
