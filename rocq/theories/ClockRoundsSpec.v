(** Specification of clock synchronization at runtime. *)
From Verif Require Import Base Net NetSpec ClockRounds.
Local Open Scope Z_scope.

(** The steps of the coordinator and the federates themselves, at times that fit. *)
Definition own (o : op) : Prop :=
  match o with Coord a b => in_int64 a /\ in_int64 b | Fed _ => True | _ => False end.
Definition can_act (s : static) (st : state) : Prop := exists o, own o /\ step s st o <> None.
(** How often somebody acts in a run. *)
Fixpoint actions (s : static) (st : state) (l : list op) : nat :=
  match l with
  | [] => 0
  | o :: l => match step s st o with None => actions s st l | Some UB => 0 | Some (Ok st) => S (actions s st l) end
  end.
(** The federates for which the coordinator enabled clock synchronization have it on,
    and there is one. *)
Definition agree (s : static) (listens : nat -> bool) : Prop :=
  Z.of_nat (n s) <= 65536 /\ (forall f, (f < n s)%nat -> enabled s f = true -> listens f = true) /\ (exists f, (f < n s)%nat /\ enabled s f = true).
(** The exchanges with one federate. *)
Definition with_fed (f : nat) (l : list (nat * (Z * Z * Z))) : list (Z * Z * Z) := map snd (filter (fun x => Nat.eqb (fst x) f) l).
(** Nobody can ever act again, except the network and other programs. *)
Definition dead (s : static) (st : state) : Prop := ~ can_act s st.
