(** The specification of the minimum-delay table: paths in the connection graph. *)
From Verif Require Import Base Tag TagSpec RtiDelays.

(** [upstream_path tp connected k ds e]: a path from [k] to [e] along connections, all nodes after [k] being connected to
    the coordinator; [ds] are the delays of its connections, the first one leaving [k]. *)
Inductive upstream_path (tp : topo) (connected : nat -> bool) (k : nat) : list Z -> nat -> Prop :=
| path_one : forall d e, In (k, d) (tp_up tp e) -> connected e = true -> upstream_path tp connected k [d] e
| path_step : forall d v ds e, In (k, d) (tp_up tp v) -> connected v = true -> upstream_path tp connected v ds e -> upstream_path tp connected k (d :: ds) e.

(** The delay of a path, in exact arithmetic: its logical time, and the microsteps after the last connection
    with a positive delay. *)
Fixpoint path_time (ds : list Z) : Z := match ds with [] => 0 | d :: ds => Z.max 0 d + path_time ds end.
Fixpoint path_micro (ds : list Z) : Z :=
  match ds with [] => 0 | d :: ds => path_micro ds + (if (d =? 0) && (path_time ds =? 0) then 1 else 0) end.
Definition path_delay (ds : list Z) : tag := mkTag (path_time ds) (path_micro ds).

(** Identifiers in range, delays representable; one microstep per connection does not overflow. *)
Definition topo_ok (tp : topo) : Prop :=
  (forall i u d, In (u, d) (tp_up tp i) -> (u < tp_n tp)%nat /\ in_int64 d) /\ Z.of_nat (tp_n tp) < UINT_MAX.
