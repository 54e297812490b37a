(** Executions of a program in which a stop is requested. *)
From Verif Require Import Base Tag TagSpec RequestStop.

(** Events are scheduled for later tags (property C22); [top] bounds their microsteps. *)
Definition allowed (top : Z) (s : state) (o : op) : Prop :=
  match o with
  | Insert i t => tag_ok t /\ tag_lt (cur (envs s i)) t /\ tmicro t < top
  | _ => True
  end.
Inductive exec (n : nat) (enclaves keepalive : bool) (inside : option nat) (top : Z) (s0 : state) (es0 : list event) : state -> list event -> Prop :=
| exec_start : exec n enclaves keepalive inside top s0 es0 s0 es0
| exec_step s es o s' es' : exec n enclaves keepalive inside top s0 es0 s es -> allowed top s o ->
    step n enclaves keepalive inside s o = Some (s', es') -> exec n enclaves keepalive inside top s0 es0 s' (es ++ es').

(** The start: proper tags; a stop tag is FOREVER_TAG or given by a timeout. *)
Record start_ok (top : Z) (start : tag) (stops : nat -> tag) : Prop := {
  so_start : tag_ok start;
  so_micro : tmicro start < top;
  so_time : ttime start < FOREVER;
  so_stops : forall i, tag_ok (stops i) /\ (tmicro (stops i) < top \/ stops i = FOREVER_TAG) }.

Definition shutdowns (i : nat) (es : list event) : list tag :=
  flat_map (fun e => match e with Shutdown j t => if Nat.eqb j i then [t] else [] | _ => [] end) es.
