(** Specification for C80: what Python code should see of ports and tags. *)
From Verif Require Import Base Tag PyPort.
Open Scope Z_scope.

(** The value that channel [i] has been set to last at the current tag, if any; the history
    is given with the most recent event first. *)
Fixpoint set_now (i : nat) (l : list pop) : option pyval :=
  match l with
  | [] => None
  | PEndTag :: _ => None
  | PSet j v :: r => if (i =? j)%nat then Some v else set_now i r
  end.

(** The object [q] shows channel [i] as it is after the history [l]. *)
Definition shows (i : nat) (l : list pop) (q : capsule) : Prop :=
  c_chan q = i /\ c_width q = -2 /\
  match set_now i (rev l) with
  | Some v => c_present q = true /\ c_value q = v
  | None => c_present q = false
  end.

(** The order of tags. *)
Definition before (a b : tag) : Prop :=
  ttime a < ttime b \/ (ttime a = ttime b /\ tmicro a < tmicro b).
Definition holds (o : cmp) (a b : tag) : Prop :=
  match o with
  | LT => before a b
  | LE => before a b \/ a = b
  | EQ => a = b
  | NE => a <> b
  | GT => before b a
  | GE => before b a \/ a = b
  end.

(** The body of the outer loop is a loop over the same object. *)
Definition inner_loop (ports : list cport) (c : capsule) : option capsule :=
  match for_each (S (length ports)) ports Some c with Ok (Ended _ c) => Some c | _ => None end.
