(** What the deadline scheduler is supposed to do, in terms of the events of
    SchedSpec.v.  The automaton accepts the sequences of events in which
    - a worker takes a reaction only if it was triggered and has not been taken
      since; no pending reaction is more urgent; and all reactions that are being
      executed have its level;
    - the tag is left only when all triggered reactions have been taken and their
      executions have ended. *)
From Verif Require Import Base SchedSpec.
Open Scope nat_scope.

Record observed_edf := mkEdf { waiting : list reaction; executing : nat -> option reaction }.

Section Spec.
Variables (n : nat) (prio : reaction -> Z) (lvl : reaction -> nat).

Definition add_edf (l : list reaction) (r : reaction) : list reaction := if existsb (Nat.eqb r) l then l else r :: l.

Definition accept_edf (o : observed_edf) (e : event) : option observed_edf :=
  match e with
  | Trigger w r =>
      match executing o w with Some _ => Some (mkEdf (add_edf (waiting o) r) (executing o)) | None => None end
  | Take w r =>
      match executing o w, remove_one r (waiting o) with
      | None, Some l =>
          if forallb (fun x => (prio r <=? prio x)%Z) (waiting o) &&
             forallb (fun v => match executing o v with Some x => lvl x =? lvl r | None => true end) (seq 0 n) && (w <? n)
          then Some (mkEdf l (set_nat (executing o) w (Some r))) else None
      | _, _ => None
      end
  | Done w => match executing o w with Some _ => Some (mkEdf (waiting o) (set_nat (executing o) w None)) | None => None end
  | NextTag rs =>
      if is_nil (waiting o) && forallb (fun w => is_none (executing o w)) (seq 0 n)
      then Some (mkEdf (fold_left add_edf rs []) (executing o)) else None
  | NextLevel => None
  end.
Fixpoint accepts_edf (o : observed_edf) (es : list event) : option observed_edf :=
  match es with
  | [] => Some o
  | e :: es => match accept_edf o e with Some o => accepts_edf o es | None => None end
  end.
Definition edf0 (rs : list reaction) : observed_edf := mkEdf (fold_left add_edf rs []) (fun _ => None).
End Spec.

(** The reactions taken since the last change of tag, latest first. *)
Fixpoint taken (acc : list reaction) (es : list event) : list reaction :=
  match es with
  | [] => acc
  | Take _ r :: es => taken (r :: acc) es
  | NextTag _ :: es => taken [] es
  | _ :: es => taken acc es
  end.
(** What a program is: reactions trigger reactions of higher levels only. *)
Definition levelled (top : nat) (lvl : reaction -> nat) (may : reaction -> reaction -> Prop) : Prop :=
  forall q r, may q r -> lvl q < lvl r <= top.
(** Deadlines are inherited: a reaction is more urgent than those it triggers. *)
Definition inherits (prio : reaction -> Z) (may : reaction -> reaction -> Prop) : Prop :=
  forall q r, may q r -> (prio q < prio r)%Z.
