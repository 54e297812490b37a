(** Model of the coordinator's minimum-delay table: core/federated/RTI/rti_common.c:285-388. *)
From Verif Require Import Base Tag.
From Verif Require Import Pqueue.   (* [upd] *)
Open Scope Z_scope.

(** tag/api/tag.h:40. *)
Definition ZERO_TAG : tag := mkTag 0 0.

(** The connections, rti_common.h:56-62: [tp_up i] lists the immediate upstream nodes of [i] with the delay of
    the connection (NEVER, or any negative number: no delay; 0: one microstep), [tp_down i] the immediate
    downstream nodes. *)
Record topo := mkTopo { tp_n : nat; tp_up : nat -> list (nat * Z); tp_down : nat -> list nat }.

(** The arrays filled by the recursion: [path_delays], [*count] and the two flags of [end]. *)
Record dstate := mkD { d_path : nat -> tag; d_count : nat; d_zdc : bool; d_cycle : bool }.

(** rti_common.c:311: the delay of one connection as a tag. *)
Definition conn_delay (d : Z) : tag := delay_tag ZERO_TAG d.

(** rti_common.c:308-339, the loop over the upstream nodes of one node; [so_far] is the path delay of that node,
    read before the loop; [rec] is the recursive call. *)
Fixpoint relax_loop (rec : nat -> dstate -> option dstate) (stop : nat) (so_far : tag) (l : list (nat * Z)) (s : dstate) : option dstate :=
  match l with
  | [] => Some s
  | (u, d) :: l =>
    let path_delay := tag_add (conn_delay d) so_far in
    if tag_compare path_delay (d_path s u) <? 0 then
      let count := if ttime (d_path s u) =? FOREVER then S (d_count s) else d_count s in
      let path := upd (d_path s) u path_delay in
      if negb (stop =? u)%nat then
        match rec u (mkD path count (d_zdc s) (d_cycle s)) with
        | None => None
        | Some s => relax_loop rec stop so_far l s
        end
      else
        relax_loop rec stop so_far l (mkD path count ((tag_compare path_delay ZERO_TAG =? 0) && (d <? 0)) true)
    else relax_loop rec stop so_far l s
  end.

(** rti_common.c:287-341 [_update_min_delays_upstream].  [inter = None] is the first call.  The C function
    recurses without a bound; [fuel] bounds the depth, and [None] says that it did not suffice. *)
Fixpoint update_delays (fuel : nat) (tp : topo) (connected : nat -> bool) (stop : nat) (inter : option nat) (s : dstate) : option dstate :=
  match fuel with
  | O => None
  | S fuel =>
    let node := match inter with None => stop | Some i => i end in
    let so_far := match inter with None => ZERO_TAG | Some i => d_path s i end in
    if connected node
    then relax_loop (fun u s => update_delays fuel tp connected stop (Some u) s) stop so_far (tp_up tp node) s
    else Some s
  end.

(** What is stored in the node: [min_delays] (identifier and delay) and the flags; or the error exit on lines
    366-368. *)
Inductive delays_result :=
| Delays (table : list (nat * tag)) (zdc cycle : bool)
| DelaysError                       (* "Internal error! Count of upstream nodes ... is wrong!" *)
| DelaysDeep.                       (* the bound on the recursion did not suffice *)

(** rti_common.c:342-378 [update_min_delays_upstream], when nothing is cached. *)
Definition compute_delays (tp : topo) (connected : nat -> bool) (node : nat) : delays_result :=
  match update_delays (S (tp_n tp)) tp connected node None (mkD (fun _ => FOREVER_TAG) 0 false false) with
  | None => DelaysDeep
  | Some s =>
    let ids := filter (fun i => tag_compare (d_path s i) FOREVER_TAG <? 0) (seq 0 (tp_n tp)) in
    if (d_count s <? length ids)%nat then DelaysError
    else Delays (map (fun i => (i, d_path s i)) ids) (d_zdc s) (d_cycle s)
  end.
