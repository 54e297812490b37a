(** Two programs that talk over one TCP connection: what
    [write_to_socket], [read_from_socket] (core/federated/network/net_util.c:91-202)
    and closing a socket do, seen from the programs.  The bytes of one direction wait
    in a queue; a read of n bytes waits for n bytes or for the other side to close.

    Simplifications: a write to a connection that the other side has closed succeeds
    (the next read tells), and bytes written before closing still arrive. *)
From Verif Require Import Base.
Local Open Scope Z_scope.

(** A program: it is over (and its socket is closed then or not), sends bytes, or
    reads [n] bytes and goes on with them, or with [eof] if they do not come. *)
Inductive proc (A : Type) : Type :=
| Over (closes : bool) (a : A)
| Send (b : list Z) (p : proc A)
| Recv (n : nat) (eof : proc A) (k : list Z -> proc A).
Arguments Over {A} closes a.
Arguments Send {A} b p.
Arguments Recv {A} n eof k.

Record duet (A B : Type) := mkDuet { one : proc A; two : proc B; to_two : list Z; to_one : list Z }.
Arguments mkDuet {A B} one two to_two to_one.
Arguments one {A B} _.
Arguments two {A B} _.
Arguments to_two {A B} _.
Arguments to_one {A B} _.

Definition closed {A} (p : proc A) : bool := match p with Over c _ => c | _ => false end.
(** One action of a program, given the bytes that wait for it and whether the other
    side has closed: the program after it, the bytes that still wait, and those sent. *)
Definition act {A} (p : proc A) (waiting : list Z) (other_closed : bool) : option (proc A * list Z * list Z) :=
  match p with
  | Over _ _ => None
  | Send b p => Some (p, waiting, b)
  | Recv n eof k =>
    if (n <=? length waiting)%nat then Some (k (firstn n waiting), skipn n waiting, [])
    else if other_closed then Some (eof, [], []) else None
  end.
(** Which of the two acts. *)
Definition step {A B} (first : bool) (s : duet A B) : option (duet A B) :=
  if first then
    match act (one s) (to_one s) (closed (two s)) with
    | Some (p, w, b) => Some (mkDuet p (two s) (to_two s ++ b) w)
    | None => None
    end
  else
    match act (two s) (to_two s) (closed (one s)) with
    | Some (p, w, b) => Some (mkDuet (one s) p w (to_one s ++ b))
    | None => None
    end.
(** A schedule: a turn of one that cannot act is without effect. *)
Fixpoint run {A B} (l : list bool) (s : duet A B) : duet A B :=
  match l with [] => s | b :: l => run l (match step b s with Some s => s | None => s end) end.
Fixpoint actions {A B} (l : list bool) (s : duet A B) : nat :=
  match l with
  | [] => 0
  | b :: l => match step b s with Some s => S (actions l s) | None => actions l s end
  end.
Definition meet {A B} (p : proc A) (q : proc B) : duet A B := mkDuet p q [] [].
