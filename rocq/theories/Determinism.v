(** Model of what reactions do while a scheduler executes them: the data side of an execution.

    A reaction reads and writes locations (its ports and the presence of them, the state of its
    reactor, the events that are pending for the actions of its reactor), and triggers
    reactions: core/reactor_common.c:676-705 [_lf_invoke_reaction] calls its body, 715-787
    [schedule_output_reactions] reads which outputs are present and triggers the reactions
    downstream.  The body is arbitrary.  Between two tags one worker, while all others are
    idle, removes events and resets presence (reactor_common.c:164-194, 229-337); this is an
    arbitrary function of the memory here.

    Each access is one step, so that accesses of workers interleave arbitrarily.  Left out:
    what the runtime hands to reactions that is no part of the state of the program (handles of
    events, the physical clock, addresses), and reactions that are executed at once by the
    worker that has triggered them (C26). *)
From Verif Require Import Base SchedSpec.

Definition loc := nat.
Definition value := Z.
Definition memory := loc -> value.

Inductive body :=
| Ret
| Read (x : loc) (k : value -> body)
| Write (x : loc) (v : value) (k : body)
| Trig (r : reaction) (k : body).

(** A step of an execution: one of the scheduler, seen as an event of SchedSpec.v, or an access
    to the memory by a worker. *)
Inductive action := Sched (e : event) | Access (w : nat).

Record machine := mkMachine { mem : memory; code : nat -> option body }.

Section Model.
Variable prog : reaction -> body.
(** What the worker that advances the tag does: the reactions triggered by the events of the
    next tag, and the memory the next tag starts with. *)
Variable boundary : memory -> list reaction * memory.

Definition set_mem (m : memory) (x : loc) (v : value) : memory := set_nat m x v.

(** [None]: not possible *)
Definition play_step (m : machine) (a : action) : option machine :=
  match a with
  | Access w =>
      match code m w with
      | Some (Read x k) => Some (mkMachine (mem m) (set_nat (code m) w (Some (k (mem m x)))))
      | Some (Write x v k) => Some (mkMachine (set_mem (mem m) x v) (set_nat (code m) w (Some k)))
      | _ => None
      end
  | Sched (Take w r) =>
      match code m w with None => Some (mkMachine (mem m) (set_nat (code m) w (Some (prog r)))) | _ => None end
  | Sched (Trigger w r) =>
      match code m w with
      | Some (Trig q k) => if Nat.eqb q r then Some (mkMachine (mem m) (set_nat (code m) w (Some k))) else None
      | _ => None
      end
  | Sched (Done w) =>
      match code m w with Some Ret => Some (mkMachine (mem m) (set_nat (code m) w None)) | _ => None end
  | Sched NextLevel => Some m
  | Sched (NextTag rs) =>
      if list_eq_dec Nat.eq_dec rs (fst (boundary (mem m))) then Some (mkMachine (snd (boundary (mem m))) (code m)) else None
  end.

(** What can be seen of a tag when it has ended: the reactions that were executed, latest
    first, and the memory. *)
Definition tag_result := (list reaction * memory)%type.

(** [ts]: the reactions taken in the current tag, latest first. *)
Fixpoint play (m : machine) (ts : list reaction) (l : list action) : option (machine * list tag_result) :=
  match l with
  | [] => Some (m, [])
  | a :: l =>
      match play_step m a with
      | None => None
      | Some m' =>
          match a with
          | Sched (Take _ r) => play m' (r :: ts) l
          | Sched (NextTag _) => match play m' [] l with Some (m2, h) => Some (m2, (ts, mem m) :: h) | None => None end
          | _ => play m' ts l
          end
      end
  end.
Definition started (m0 : memory) : machine := mkMachine m0 (fun _ => None).
End Model.

(** The events of the scheduler in an execution. *)
Definition scheduled (l : list action) : list event := flat_map (fun a => match a with Sched e => [e] | Access _ => [] end) l.
