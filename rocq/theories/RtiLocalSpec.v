(** The specification of the coordination of enclaves.  [grants_respected] and [no_zero_delay_cycle] are those of
    FederationSpec.v: in the log of an enclave, every event that another enclave puts into its queue after a grant has
    a later tag. *)
From Verif Require Import Base Tag TagSpec RtiDelays RtiDelaysSpec Rti RtiLocal.
From Verif Require Export FederationSpec.

(** The executions for which the coordination works: there are no physical actions; an enclave that has no more events
    keeps alive, and its stop tag is not lowered below what it has asked for; and no event reaches an enclave while it
    is between its own critical section and that of the RTI. *)
Definition calm (y : sys) (o : lop) : Prop :=
  match o with
  | EPhysical _ _ | EStarve _ => False
  | EStop i t => tag_le (e_promise (y_enc y i)) t
  | ESend _ j _ => forall t, e_phase (y_enc y j) <> Asked t
  | _ => True
  end.

Inductive calm_run (tp : topo) (start : Z) (stops : nat -> tag) : sys -> Prop :=
| calm_init : calm_run tp start stops (init_sys start stops)
| calm_step y o y' : calm_run tp start stops y -> calm y o -> loc_step tp start y o = Some y' -> calm_run tp start stops y'.
