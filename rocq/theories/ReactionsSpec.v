(** Specification vocabulary for C26. *)
From Coq Require Import List Arith Bool ZArith Relations Permutation.
From Verif Require Import Reactions.
Import ListNotations.

(** The heap returns an element of least index. *)
Definition picks_least (P : rprog) (pick : picker) : Prop :=
  pick [] = None /\
  forall q, q <> [] -> exists r q', pick q = Some (r, q') /\ Permutation q (r :: q') /\ forall x, In x q -> (rp_index P r <= rp_index P x)%Z.

(** [r] has an output that triggers [d]; [r] is upstream of [d]. *)
Definition edge (P : rprog) (r d : nat) : Prop := exists l, In l (rp_down P r) /\ In d l.
Definition upstream (P : rprog) : nat -> nat -> Prop := clos_trans nat (edge P).

(** Indices increase along edges. *)
Definition leveled (P : rprog) : Prop := forall r d, edge P r d -> (rp_index P r < rp_index P d)%Z.
(** What the code generator promises when it names a last enabling reaction: nothing else triggers the
    reaction (neither another reaction nor an event). *)
Definition last_ok (P : rprog) (init : list nat) : Prop :=
  forall d r, rp_last P d = Some r -> ~ In d init /\ forall u, edge P u d -> u = r.

(** [d] is triggered: by an event of the tag, or by an output, present after the invocation, of a
    reaction invoked in [h]. *)
Definition triggered (P : rprog) (beh : behaviour) (init h : list nat) (d : nat) : Prop :=
  In d init \/ exists a r b, h = a ++ r :: b /\ In d (produced P beh a r).
