(** Model of [lf_enqueue_port_absent_reactions] in core/federated/federate.c with [lf_scheduler_trigger_reaction] of the three
    schedulers. *)
From Verif Require Import Base.
Local Open Scope list_scope.

(** include/core/lf_types.h:109: the states of a reaction *)
Inductive status := Inactive | Queued | Running.
Definition is_inactive (s : status) : bool := match s with Inactive => true | _ => false end.
(** The states of the reactions and the reactions handed to the queue of the scheduler, in this order (simplification: the queue
    itself is modelled elsewhere). *)
Record sched := mkSched { q_status : nat -> status; q_queue : list nat }.
(** scheduler_NP.c:388-396, scheduler_GEDF_NP.c:236-264, scheduler_adaptive.c:727-732 [lf_scheduler_trigger_reaction]: the
    compare-and-swap lets only an inactive reaction pass *)
Definition trigger_reaction (s : sched) (r : nat) : sched :=
  if is_inactive (q_status s r) then mkSched (fun x => if Nat.eqb x r then Queued else q_status s x) (q_queue s ++ [r]) else s.
(** federate.c:2139-2145: the loop over the table, in which places may be NULL *)
Fixpoint enqueue_loop (s : sched) (table : list (option nat)) : sched :=
  match table with
  | [] => s
  | o :: table =>
      enqueue_loop (match o with Some r => if is_inactive (q_status s r) then trigger_reaction s r else s | None => s end) table
  end.
(** federate.c:2124-2146 *)
Definition enqueue_port_absent_reactions (centralized has_downstream : bool) (table : list (option nat)) (s : sched) : sched :=
  if (centralized && negb has_downstream)%bool then s else if Nat.eqb (length table) 0 then s else enqueue_loop s table.
