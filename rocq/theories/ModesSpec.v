(** Modes: when a mode is active, and executions of modal programs. *)
From Coq Require Import Permutation.
From Verif Require Import Base Tag TagSpec Modes.

(** A mode is active if it is the current mode of its reactor and so are all modes that
    enclose it. *)
Inductive Active (p : program) (cur : nat -> mode) : mode -> Prop :=
| active_top m : cur (owner p m) = m -> parent p (owner p m) = None -> Active p cur m
| active_inner m m' : cur (owner p m) = m -> parent p (owner p m) = Some m' -> Active p cur m' -> Active p cur m.

(** Generated code: the initial mode is one of the reactor's own modes, and an enclosing
    modal reactor precedes the enclosed one in the array. *)
Record program_ok (p : program) : Prop := {
  po_initial : forall i, (i < size p)%nat -> owner p (initial p i) = i;
  po_parent : forall i m, (i < size p)%nat -> parent p i = Some m -> (owner p m < i)%nat;
  po_offset : forall tr, 0 <= offset p tr <= LLONG_MAX;
  po_modes : forall tr m, tmode p tr = Some m -> (owner p m < size p)%nat;
  po_once : NoDup (timers p);
  po_timers : forall tr, In tr (timers p) -> is_timer p tr = true }.

(** A reaction sets a mode of its own reactor; it schedules events for later tags and for
    triggers in active modes only; microsteps do not reach the largest number. *)
Definition allowed (p : program) (s : state) (o : op) : Prop :=
  match o with
  | SetMode i m c => (i < size p)%nat /\ owner p m = i /\ c <> NoTransition
  | Schedule tr t => tag_lt (now s) t /\ match tmode p tr with Some m => Active p (cur s) m | None => True end
  | Reorder l => Permutation (q s) l
  | Advance t => tag_ok t /\ ttime t < FOREVER /\ tmicro t < UINT_MAX - 1
  end.
Inductive exec (p : program) (t0 : Z) (stop : tag) : state -> list event -> Prop :=
| exec_start : exec p t0 stop (fst (init p t0 stop)) (snd (init p t0 stop))
| exec_step s es o s' es' : exec p t0 stop s es -> allowed p s o -> step p s o = Some (s', es') -> exec p t0 stop s' (es ++ es').

(** A mode of a modal reactor that is not inside of another mode. *)
Definition outermost (p : program) (m : mode) : Prop := (owner p m < size p)%nat /\ parent p (owner p m) = None.
(** An event of the mode [m] itself *)
Definition belongs (p : program) (e : ev) (tr : nat) (m : mode) : Prop := etrig e = Some tr /\ tmode p tr = Some m.

(** The mode that each reactor enters at the end of a tag.  A reactor that is inside of a mode
    which is entered by a reset enters its initial mode by a reset; any other reactor
    enters the mode that was requested last, if there was a request. *)
Definition requested (s : state) (i : nat) : option (mode * change) :=
  match next s i with Some m => Some (m, chg s i) | None => None end.
Definition transitions (p : program) (s : state) (go : nat -> option (mode * change)) : Prop :=
  forall i, (i < size p)%nat ->
    (forall m, parent p i = Some m -> go (owner p m) = Some (m, Reset) -> go i = Some (initial p i, Reset)) /\
    ((forall m, parent p i = Some m -> go (owner p m) <> Some (m, Reset)) -> go i = requested s i).

(** The event queue has an event of this trigger with this tag. *)
Definition in_queue (s : state) (tr : nat) (t : tag) : Prop := exists e, In e (q s) /\ etrig e = Some tr /\ etag e = t.
