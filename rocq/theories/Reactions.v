(** Model of the execution of reactions within one tag, single-threaded: core/reactor.c and
    schedule_output_reactions of core/reactor_common.c.  What a reaction's body does is an oracle: it
    says which outputs are present when the body (or the handler that runs instead of it) returns. *)
From Coq Require Import List Arith Bool ZArith.
From Verif Require Import Pqueue.
Import ListNotations.
Open Scope nat_scope.

(** lf_types.h:155-190 [reaction_t]: index (priority), the reactions triggered by each output,
    last_enabling_reaction. *)
Record rprog := mkRP { rp_index : nat -> Z; rp_down : nat -> list (list nat); rp_last : nat -> option nat }.
(** lf_types.h:73-77 *)
Inductive rstatus := inactive | queued | running.
(** The reaction queue, the status of each reaction and the reactions that have been invoked, in order. *)
Record rst := mkRst { rs_q : list nat; rs_st : nat -> rstatus; rs_hist : list nat }.
(** [beh hist r i]: output i of r is present after r was invoked; hist is what was invoked before. *)
Definition behaviour := list nat -> nat -> nat -> bool.
(** The queue gives back a reaction of least index; which one is up to the heap. *)
Definition picker := list nat -> option (nat * list nat).

(** reactor.c:100-119 [_lf_trigger_reaction] (modes left out) *)
Definition trigger (s : rst) (r : nat) : rst :=
  match rs_st s r with inactive => mkRst (r :: rs_q s) (upd (rs_st s) r queued) (rs_hist s) | _ => s end.

(** Downstream reactions of the outputs present, in the order of the nested loops reactor_common.c:733-741. *)
Fixpoint present_from (i : nat) (l : list (list nat)) (b : nat -> bool) : list nat :=
  match l with [] => [] | x :: r => (if b i then x else []) ++ present_from (S i) r b end.
Definition produced (P : rprog) (beh : behaviour) (hist : list nat) (r : nat) : list nat := present_from 0 (rp_down P r) (beh hist r).

Definition opt_is (o : option nat) (n : nat) : bool := match o with Some m => Nat.eqb m n | None => false end.
(** reactor_common.c:750-782, the body of the innermost loop: state, candidate to execute now, number of
    downstream reactions. *)
Definition down_step (P : rprog) (r : nat) (x : rst * option nat * nat) (d : nat) : rst * option nat * nat :=
  let '(s, cand, n) := x in
  if opt_is cand d then x
  else if (S n =? 1) && opt_is (rp_last P d) r then (s, Some d, S n)
  else (trigger (match cand with Some c => trigger s c | None => s end) d, None, S n).

(** reactor_common.c:715-866 [schedule_output_reactions]; [None] is lack of fuel.  A deadline or STP
    handler that runs instead of the body counts as the invocation (reactor_common.c:812-857). *)
Fixpoint outs (fuel : nat) (P : rprog) (beh : behaviour) (s : rst) (pre : list nat) (r : nat) : option rst :=
  match fuel with
  | O => None
  | S f =>
      match fold_left (down_step P r) (produced P beh pre r) (s, None, 0) with
      | (s1, Some d, _) => outs f P beh (mkRst (rs_q s1) (rs_st s1) (rs_hist s1 ++ [d])) (rs_hist s1) d
      | (s1, None, _) => Some s1
      end
  end.

(** reactor.c:133-190, the loop of [_lf_do_step]. *)
Fixpoint drain (fuel : nat) (P : rprog) (pick : picker) (beh : behaviour) (s : rst) : option rst :=
  match fuel with
  | O => None
  | S f =>
      match pick (rs_q s) with
      | None => Some s
      | Some (r, q) =>
          match outs f P beh (mkRst q (upd (rs_st s) r running) (rs_hist s ++ [r])) (rs_hist s) r with
          | None => None
          | Some s1 => drain f P pick beh (mkRst (rs_q s1) (upd (rs_st s1) r inactive) (rs_hist s1))
          end
      end
  end.
(** Start of the tag: the reactions triggered by the events of the tag have been put in the queue
    (reactor_common.c:243-262). *)
Definition at_start (init : list nat) : rst := fold_left trigger init (mkRst [] (fun _ => inactive) []).
