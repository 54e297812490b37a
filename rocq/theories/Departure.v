(** Model of federates that go away: core/federated/RTI/rti_remote.c:983-1017, 1031-1070 (resignation and failure,
    in Rti.v) and 1081-1091, 1137-1145 (a connection that is closed without a message). *)
From Verif Require Import Base Tag RtiDelays Rti.
Open Scope Z_scope.

Inductive dop :=
| DMsg (o : rop)             (* a message is handled *)
| DClosed (i : nat).         (* reading from the socket of [i] fails *)

(** rti_remote.c:1083-1091: only the state of the federate changes. *)
Definition dep_step (tp : topo) (start : Z) (ok : nat -> bool) (s : rti) (o : dop) : option rti :=
  match o with
  | DMsg o => rti_step tp start ok s o
  | DClosed i => Some (if r_connected (s i) then on s i (set_connected false) else s)
  end.
(** A history: each operation with the sockets that accept writes during it. *)
Fixpoint dep_run (tp : topo) (start : Z) (s : rti) (l : list (dop * (nat -> bool))) : option rti :=
  match l with
  | [] => Some s
  | (o, ok) :: l => match dep_step tp start ok s o with Some s => dep_run tp start s l | None => None end
  end.
