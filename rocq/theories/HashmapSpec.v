(** Specification of the fixed-size map (include/core/utils/impl/hashmap.h). *)
From Verif Require Import Base Hashmap.
Open Scope nat_scope.

(** Specification: the value of the latest put of a key. *)
Fixpoint latest (k : Z) (kvs : list (Z * Z)) : option Z :=
  match kvs with
  | [] => None
  | (k', v) :: r => match latest k r with Some w => Some w | None => if (k =? k')%Z then Some v else None end
  end.

(** Distinct keys. *)
Definition keys (kvs : list (Z * Z)) : list Z := nodup Z.eq_dec (map fst kvs).

(** Number of occupied slots. *)
Definition occupied (m : hmap) : nat := length (filter (fun a => negb (m_key m a =? m_nothing m)%Z) (seq 0 (m_cap m))).
