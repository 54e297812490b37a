(** Model of the choice of the number of workers of each level in the adaptive
    scheduler, core/threaded/scheduler_adaptive.c.

    Sizes and counts are natural numbers (their wrap-around at 2^64 is not
    modelled, except for the counter of line 652); arrays are functions, and every
    access that is not bounded by the loop around it is checked.  The readings of
    the physical clock and the results of rand() are inputs. *)
From Verif Require Import Base SchedSpec.
Open Scope nat_scope.

Inductive outcome (A : Type) :=
| Done (a : A)
| TimeOverflow              (* signed overflow of a time: undefined behaviour *)
| OutOfBounds               (* undefined behaviour *)
| AssertFails.
Arguments Done {A} _.
Arguments TimeOverflow {A}.
Arguments OutOfBounds {A}.
Arguments AssertFails {A}.
Definition andthen {A B} (r : outcome A) (f : A -> outcome B) : outcome B :=
  match r with Done a => f a | TimeOverflow => TimeOverflow | OutOfBounds => OutOfBounds | AssertFails => AssertFails end.
Notation "'let!' x := r 'in' k" := (andthen r (fun x => k)) (at level 200, x name, r at level 100, k at level 200).

Definition time (z : Z) : outcome Z := if in_int64b z then Done z else TimeOverflow.

(** data_collection_t and worker_assignments_t, lines 63-94 *)
Record data := mkData {
  current : nat;                        (* current_level *)
  workers : nat;                        (* num_workers *)
  nums : nat -> nat;                    (* num_workers_by_level *)
  starts : nat -> Z;                    (* start_times_by_level *)
  etimes : nat -> nat -> Z;             (* execution_times_by_num_workers_by_level *)
  mins : nat -> Z;                      (* execution_times_mins *)
  argmins : nat -> nat;                 (* execution_times_argmins *)
  counter : Z;                          (* data_collection_counter *)
  collecting : bool }.                  (* collecting_data *)

Section Model.
Variable n : nat.                       (* max_num_workers *)
Variable levels : nat.                  (* num_levels *)
Variable size : nat -> nat.             (* num_reactions_per_level *)

(** Lines 172-175: max_num_workers_by_level *)
Definition maxs (l : nat) : nat := Nat.min (size l) n.

Definition set2 (f : nat -> nat -> Z) (l k : nat) (z : Z) : nat -> nat -> Z := set_nat f l (set_nat (f l) k z).

(** Lines 474-491: the array starts with 0, 1, 2, 4 ..., and has 4 elements and one
    for each halving of the number of workers down to 1. *)
Definition prepared : list nat := 0 :: map (fun i => 2 ^ i) (seq 0 (3 + Nat.log2 n)).

(** Lines 501-518; [rand] is the result of rand() *)
Definition jitter (current_state : nat) (execution_time rand : Z) : outcome Z :=
  if (execution_time <? 16384)%Z && (current_state =? 1) then Done 0%Z
  else
    let left := if (execution_time <? 114688)%Z then (16384 + (114688 - execution_time))%Z else 16384%Z in
    let total := (left + 65536 + 65536)%Z in
    if (2147483647 <? total)%Z then TimeOverflow
    else
      let result := (rand mod total)%Z in
      Done (if (result <? left)%Z then (-1)%Z else if (result <? left + 65536)%Z then 0%Z else 1%Z).

(** Lines 528-530: the first index from [i] with a number that is not less *)
Fixpoint search (l : list nat) (i current_state : nat) : outcome nat :=
  match l with
  | [] => OutOfBounds
  | x :: l => if x <? current_state then search l (S i) current_state else Done i
  end.

(** Lines 521-532 *)
Definition neighbour (current_state : nat) (execution_time rand : Z) : outcome nat :=
  let! j := jitter current_state execution_time rand in
  if (j =? 0)%Z then Done current_state
  else
    let! i := search (tl prepared) 1 current_state in
    match nth_error prepared (Z.to_nat (Z.of_nat i + j)) with Some k => Done k | None => OutOfBounds end.

(** Lines 150-191 and 534-549 *)
Definition init : data :=
  mkData 0 (maxs 0) maxs (fun _ => 0%Z) (fun _ _ => 0%Z) (fun _ => 0%Z) (fun _ => n) 0 false.

(** Lines 563-567 *)
Definition start_level (d : data) (l : nat) (now : Z) : data :=
  if collecting d then mkData (current d) (workers d) (nums d) (set_nat (starts d) l now) (etimes d) (mins d) (argmins d) (counter d) (collecting d)
  else d.

(** Lines 570-583 *)
Definition end_level (d : data) (l k : nat) (now : Z) : outcome data :=
  if negb (l <? levels) then OutOfBounds
  else if collecting d && negb (starts d l =? 0)%Z then
    let! dt := time (now - starts d l) in
    if negb (k <? S n) || negb (argmins d l <? S n) then OutOfBounds
    else
      let! e := (if (etimes d l k =? 0)%Z then let! twice := time (2 * etimes d l (argmins d l)) in Done (Z.max dt twice)
                 else Done (etimes d l k)) in
      let! sum := time (e * 15 + dt) in
      Done (mkData (current d) (workers d) (nums d) (starts d) (set2 (etimes d) l k (sum / 16)%Z) (mins d) (argmins d) (counter d) (collecting d))
  else Done d.

(** Lines 585-592 *)
Definition restrict_to_range (lo hi value : nat) : outcome nat :=
  if hi <? lo then AssertFails
  else Done (if value <? lo then lo else if hi <? value then hi else value).

(** Lines 603-621, one level *)
Definition choose (with_jitter : bool) (rands : nat -> Z) (d : data) (l : nat) : outcome data :=
  if negb (nums d l <? S n) then OutOfBounds
  else
    let! ideal := (if with_jitter then neighbour (argmins d l) (etimes d l (nums d l)) (rands l) else Done (argmins d l)) in
    let! k := restrict_to_range 1 (maxs l) ideal in
    Done (mkData (current d) (workers d) (set_nat (nums d) l k) (starts d) (etimes d) (mins d) (argmins d) (counter d) (collecting d)).

(** Lines 628-638, one level *)
Definition cost (d : data) (l : nat) : outcome data :=
  if negb (nums d l <? S n) then OutOfBounds
  else
    let score := etimes d l (nums d l) in
    Done (if (mins d l =? 0)%Z || (score <? mins d l)%Z || (nums d l =? argmins d l) then
            mkData (current d) (workers d) (nums d) (starts d) (etimes d) (set_nat (mins d) l score) (set_nat (argmins d) l (nums d l)) (counter d) (collecting d)
          else d).

Fixpoint for_levels (f : data -> nat -> outcome data) (d : data) (ls : list nat) : outcome data :=
  match ls with [] => Done d | l :: ls => let! d := f d l in for_levels f d ls end.

Definition set_collecting (b : bool) (d : data) : data :=
  mkData (current d) (workers d) (nums d) (starts d) (etimes d) (mins d) (argmins d) (counter d) b.

(** Lines 646-663 *)
Definition end_tag (rands : nat -> Z) (d : data) : outcome data :=
  let! d := (if collecting d && negb (starts d 0 =? 0)%Z then for_levels cost d (seq 0 levels) else Done d) in
  let c := ((counter d + 1) mod two64)%Z in
  let d := mkData (current d) (workers d) (nums d) (starts d) (etimes d) (mins d) (argmins d) c (collecting d) in
  let period := if (256 <? c)%Z then 130%Z else 2%Z in
  let state := (c mod period)%Z in
  if (state =? 0)%Z then let! d := for_levels (choose (8 <? c)%Z rands) d (seq 0 levels) in Done (set_collecting true d)
  else if (state =? 1)%Z then let! d := for_levels (choose false rands) d (seq 0 levels) in Done (set_collecting false d)
  else Done d.

(** Lines 134-148; [t1] and [t2] are the readings of the clock when the level that
    is left ends and when the new one starts. *)
Definition set_level (d : data) (l : nat) (t1 t2 : Z) : outcome data :=
  if negb (l <? levels) then AssertFails
  else
    let! d := end_level d (current d) (workers d) t1 in
    Done (start_level (mkData l (nums d l) (nums d) (starts d) (etimes d) (mins d) (argmins d) (counter d) (collecting d)) l t2).

(** Lines 429-448: one change of level.  Line 446 sets the current level before it
    calls set_level. *)
Definition advance (d : data) (rands : nat -> Z) (t1 t2 : Z) : outcome data :=
  if current d =? levels - 1 then
    let! d := end_tag rands d in set_level d 0 t1 t2
  else
    let d := mkData (S (current d)) (workers d) (nums d) (starts d) (etimes d) (mins d) (argmins d) (counter d) (collecting d) in
    set_level d (current d) t1 t2.

Fixpoint run (d : data) (ops : list ((nat -> Z) * Z * Z)) : outcome data :=
  match ops with
  | [] => Done d
  | (rands, t1, t2) :: ops => let! d := advance d rands t1 t2 in run d ops
  end.
End Model.
