(** Model of the monotone physical clock, core/clock.c. *)
From Verif Require Import Base Tag.

(** Where a thread is inside [lf_clock_gettime]. *)
Inductive pc :=
| Idle
| HasNow (now : Z)               (* before line 31: *now holds a value *)
| HasLast (now last : Z).        (* before line 42: last_read_local is loaded *)

Record clock := mkClock {
  last_read : Z;                 (* last_read_physical_time *)
  thread : nat -> pc;
  returned : list (nat * Z) }.   (* values returned, the latest first *)

Definition set_pc (c : clock) (t : nat) (p : pc) : clock :=
  mkClock (last_read c) (fun u => if Nat.eqb u t then p else thread c u) (returned c).

(** clock.c:20: NEVER *)
Definition clock0 : clock := mkClock NEVER (fun _ => Idle) [].

(** The atomic steps of [lf_clock_gettime], clock.c:22-45, interleaved arbitrarily
    between threads. *)
Inductive op :=
| Read (t : nat) (raw : Z)   (* lines 24-28: the platform clock plus the sync offset; may go backwards *)
| ReadFails (t : nat)        (* lines 25-27: returns -1 *)
| Load (t : nat)             (* lines 32 and 35-37 (only local variables are written) *)
| Cas (t : nat).             (* line 42 *)

(** Line 36 is a signed addition: undefined if the last value is LLONG_MAX. *)
Definition step (c : clock) (o : op) : res clock :=
  match o with
  | Read t raw =>
      match thread c t with Idle => Ok (set_pc c t (HasNow raw)) | _ => Ok c end
  | ReadFails t => Ok c
  | Load t =>
      match thread c t with
      | HasNow now =>
          let last := last_read c in
          if now <? last
          then do! n <- c_add64 last 1; Ok (set_pc c t (HasLast n last))
          else Ok (set_pc c t (HasLast now last))
      | _ => Ok c
      end
  | Cas t =>
      match thread c t with
      | HasLast now last =>
          if last_read c =? last
          then Ok (mkClock now (fun u => if Nat.eqb u t then Idle else thread c u) ((t, now) :: returned c))
          else Ok (set_pc c t (HasNow now))
      | _ => Ok c
      end
  end.

Fixpoint run (c : clock) (l : list op) : res clock :=
  match l with
  | [] => Ok c
  | o :: r => do! c' <- step c o; run c' r
  end.
