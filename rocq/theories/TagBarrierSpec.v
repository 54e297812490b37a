(** What a barrier on the advancement of tags is for. *)
From Verif Require Import Base Tag TagSpec TagBarrier.

(** The barriers that are held after some events: who holds it, the tag asked for,
    and the current tag when it was asked for. *)
Definition hold : Type := nat * (tag * tag).
Fixpoint drop (k : nat) (l : list hold) : list hold :=
  match l with
  | [] => []
  | h :: l => if Nat.eqb (fst h) k then l else h :: drop k l
  end.
Definition note (l : list hold) (e : event) : list hold :=
  match e with Raised k f c => (k, (f, c)) :: l | Released k => drop k l | Advanced _ => l end.
Definition held (es : list event) : list hold := fold_left note es [].

(** A barrier allows to advance to a tag if it was asked for a later one.  A barrier
    for a tag that was not in the future when it was asked for does not allow anything. *)
Definition allows (h : hold) (t : tag) : Prop := let (f, c) := snd h in tag_lt c f /\ tag_lt t f.

(** Every advancement was allowed by all barriers held at that moment. *)
Definition respected (es : list event) : Prop :=
  forall a t b, es = a ++ Advanced t :: b -> forall h, In h (held a) -> allows h t.
(** The same for the advancements to a proper time. *)
Definition respected_but_forever (es : list event) : Prop :=
  forall a t b, es = a ++ Advanced t :: b -> ttime t <> FOREVER -> forall h, In h (held a) -> allows h t.

(** The environment of the model: events are scheduled for the future, and a barrier is
    released by who holds it. *)
Definition allowed (es : list event) (e : env) (o : op) : Prop :=
  match o with
  | Insert t => tag_ok t /\ tag_lt (cur e) t
  | SetStop t => tag_ok t
  | Raise _ f => tag_ok f
  | Release k => In k (map fst (held es))
  | _ => True
  end.
Inductive exec (federated : bool) (e0 : env) : env -> list event -> Prop :=
| exec_start : exec federated e0 e0 []
| exec_step e es o e' es' : exec federated e0 e es -> allowed es e o -> step federated e o = Done e' es' -> exec federated e0 e' (es ++ es').
