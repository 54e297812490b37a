(** Model of include/core/utils/impl/hashmap.h: fixed-size linear-probing map. *)
From Verif Require Import Base Pqueue.
Open Scope nat_scope.

(** hashmap.h:34-44 [entry_t], [t].  Keys and values are numbers; the value field
    of an entry is [None] until first written (malloc'ed memory). *)
Record hmap := mkHmap { m_key : nat -> Z; m_val : nat -> option Z; m_cap : nat; m_num : nat; m_nothing : Z }.

Section WithHash.
Variable hash : Z -> nat.

(** hashmap.h:101-119 [new] *)
Definition hm_new (cap : nat) (nothing : Z) : hmap := mkHmap (fun _ => nothing) (fun _ => None) cap 0 nothing.

(** hashmap.h:70-75 [get_ideal_address]: modulo by zero is UB; the assertions hold
    by the modulo. *)
Definition hm_ideal (m : hmap) (k : Z) : res nat := if m_cap m =? 0 then UB else Ok (hash k mod m_cap m).

(** The loops of lines 86-87 and 90-91; the table has capacity+1 entries. *)
Fixpoint hm_scan (fuel : nat) (m : hmap) (k : Z) (a : nat) : res nat :=
  match fuel with
  | O => UB
  | S f => if m_cap m <? a then UB
           else if (m_key m a =? m_nothing m)%Z || (m_key m a =? k)%Z then Ok a else hm_scan f m k (S a)
  end.
(** hashmap.h:83-97 [get_actual_address]; [None] is NULL *)
Definition hm_addr (m : hmap) (k : Z) : res (option nat) :=
  do! i <- hm_ideal m k;
  do! a <- hm_scan (m_cap m + 2) m k i;
  if a =? m_cap m then
    do! a2 <- hm_scan (m_cap m + 2) m k 0;
    if a2 =? m_cap m then Ok None else Ok (Some a2)
  else Ok (Some a).

(** hashmap.h:126-131 [put]; the assertion failing and writing through NULL are UB *)
Definition hm_put (m : hmap) (k v : Z) : res hmap :=
  if (k =? m_nothing m)%Z then UB
  else do! r <- hm_addr m k;
       match r with
       | Some a => Ok (mkHmap (upd (m_key m) a k) (upd (m_val m) a (Some v)) (m_cap m) (m_num m) (m_nothing m))
       | None => UB
       end.
(** hashmap.h:133-137 [get]; reading a value never written yields [None] *)
Definition hm_get (m : hmap) (k : Z) : res (option Z) :=
  if (k =? m_nothing m)%Z then UB
  else do! r <- hm_addr m k; match r with Some a => Ok (m_val m a) | None => UB end.

Fixpoint hm_puts (m : hmap) (kvs : list (Z * Z)) : res hmap :=
  match kvs with
  | [] => Ok m
  | (k, v) :: r => do! m1 <- hm_put m k v; hm_puts m1 r
  end.
End WithHash.
