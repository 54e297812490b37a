(** Specification of the pointer set: a duplicate-free list used as a set. *)
From Verif Require Import Base Hashset.

Definition mem (x : Z) (s : list Z) : bool := existsb (Z.eqb x) s.
Definition hspec (s : list Z) (o : hop) : list Z * Z :=
  match o with
  | HAdd x => if (x =? 0) || (x =? 1) then (s, -1) else if mem x s then (s, 0) else (x :: s, 1)
  | HRemove x => if mem x s then (filter (fun y => negb (y =? x)) s, 1) else (s, 0)
  | HIsMember x => (s, if mem x s then 1 else 0)
  | HNum => (s, Z.of_nat (length s))
  end.
Fixpoint hspec_run (s : list Z) (ops : list hop) : list Z * list Z :=
  match ops with
  | [] => (s, [])
  | o :: os => let r := hspec s o in let r' := hspec_run (fst r) os in (fst r', snd r :: snd r')
  end.
(** Items are addresses; the value 1 may only be passed to add (which rejects it). *)
Definition hpre (o : hop) : Prop :=
  match o with
  | HAdd x => 0 <= x < two64
  | HRemove x | HIsMember x => 0 <= x < two64 /\ x <> 1
  | HNum => True
  end.
Definition is_add (o : hop) : bool := match o with HAdd _ => true | _ => false end.
Definition adds (ops : list hop) : Z := Z.of_nat (length (filter is_add ops)).
