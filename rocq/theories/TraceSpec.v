(** What a trace is supposed to contain. *)
From Verif Require Import Base Trace.
Open Scope Z_scope.

(** The records a thread has traced, in order, and those of it in the file. *)
Fixpoint traced (tid : Z) (l : list op) : list record :=
  match l with
  | [] => []
  | Tracepoint v r _ :: l => if v =? tid then r :: traced tid l else traced tid l
  | Stop _ :: l => traced tid l
  end.
Fixpoint in_file (tid : Z) (blocks : list (Z * list record)) : list record :=
  match blocks with
  | [] => []
  | (v, b) :: l => if v =? tid then b ++ in_file tid l else in_file tid l
  end.
Definition tids_ok (n : Z) (l : list op) : Prop :=
  Forall (fun o => match o with Tracepoint v _ _ => -1 <= v < n | Stop _ => True end) l.
(** The file never fails. *)
Definition io_ok (l : list op) : Prop :=
  Forall (fun o => match o with Tracepoint _ _ o => o = IoOk | Stop o => forall w, o w = IoOk end) l.
Definition no_stop (l : list op) : Prop :=
  Forall (fun o => match o with Tracepoint _ _ _ => True | Stop _ => False end) l.
