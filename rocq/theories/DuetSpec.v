(** Specification of conversations: how they end. *)
From Verif Require Import Base Duet.
Local Open Scope Z_scope.

Definition stuck {A B} (s : duet A B) : Prop := step true s = None /\ step false s = None.
(** Whatever the schedule, the conversation comes to an end, always the same one. *)
Definition always_ends {A B} (s fin : duet A B) : Prop :=
  stuck fin /\
  (forall l, exists l', run (l ++ l') s = fin) /\
  (forall l, stuck (run l s) -> run l s = fin) /\
  (exists m, forall l, (actions l s <= m)%nat).
(** A program that waits for ever. *)
Definition waits {A} (p : proc A) : Prop := match p with Recv _ _ _ => True | _ => False end.
