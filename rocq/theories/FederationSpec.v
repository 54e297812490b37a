(** The specification of the safety of grants. *)
From Verif Require Import Base Tag TagSpec RtiDelays RtiDelaysSpec Rti.

(** In the log of what a federate is sent, every message after a TAG has a later tag. *)
Definition grants_respected (log : list rmsg) : Prop :=
  forall l1 t l2 g, log = l1 ++ MTag t :: l2 -> In (MMsg g) l2 -> tag_lt t g.

(** No cycle of connections without delay. *)
Definition no_zero_delay_cycle (tp : topo) : Prop :=
  forall e ds, upstream_path tp (fun _ => true) e ds e -> exists d, In d ds /\ 0 <= d.
