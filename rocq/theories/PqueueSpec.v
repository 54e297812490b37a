(** Specification of a priority queue: a finite collection of elements. *)
From Verif Require Import Base Pqueue.
From Coq Require Import Permutation.
Open Scope nat_scope.

(** What the comparison callback has to be: "cmp a b = 1" is a strict weak order
    (a comes strictly after b). *)
Record cmp_ok (cmp : elem -> elem -> Z) : Prop := {
  cmp_asym : forall a b, cmp a b = 1%Z -> cmp b a <> 1%Z;
  cmp_negtrans : forall a b c, cmp a c = 1%Z -> cmp a b = 1%Z \/ cmp b c = 1%Z
}.
(** A three-way comparison: 0 exactly for neither-before-nor-after. *)
Definition cmp3 (cmp : elem -> elem -> Z) : Prop :=
  forall a b, cmp a b = 0%Z <-> (cmp a b <> 1%Z /\ cmp b a <> 1%Z).

(** One operation on the abstract collection [s]: what it may answer and what
    it leaves.  The last three lines say a search finds an element exactly when a
    matching one is present. *)
Definition pq_spec (cmp : elem -> elem -> Z) (eqe : elem -> elem -> bool)
    (s : list elem) (o : pqop) (s' : list elem) (out : pqout) : Prop :=
  match o, out with
  | OInsert e, OutUnit => Permutation s' (e :: s)
  | OPop, OutElem None => s = [] /\ s' = []
  | OPop, OutElem (Some e) => Permutation s (e :: s') /\ forall x, In x s -> cmp e x <> 1%Z
  | ORemove e, OutUnit => Permutation s (e :: s')
  | OPeek, OutElem None => s = [] /\ s' = s
  | OPeek, OutElem (Some e) => s' = s /\ In e s /\ forall x, In x s -> cmp e x <> 1%Z
  | OSize, OutNat n => s' = s /\ n = length s
  | OFindSame e, OutElem (Some x) => s' = s /\ In x s /\ cmp x e = 0%Z
  | OFindSame e, OutElem None => s' = s /\ forall x, In x s -> cmp x e <> 0%Z
  | OFindEqual e, OutElem (Some x) => s' = s /\ In x s /\ cmp x e = 0%Z /\ eqe x e = true
  | OFindEqual e, OutElem None => s' = s /\ forall x, In x s -> ~ (cmp x e = 0%Z /\ eqe x e = true)
  | _, _ => False
  end.
(** What the caller has to respect: no double insertion, removal only of present elements. *)
Definition pq_pre (s : list elem) (o : pqop) : Prop :=
  match o with OInsert e => ~ In e s | ORemove e => In e s | _ => True end.

Inductive pq_spec_run (cmp : elem -> elem -> Z) (eqe : elem -> elem -> bool) :
    list elem -> list pqop -> list elem -> list pqout -> Prop :=
| psr_nil s : pq_spec_run cmp eqe s [] s []
| psr_cons s o s1 out os s2 outs :
    pq_spec cmp eqe s o s1 out -> pq_spec_run cmp eqe s1 os s2 outs ->
    pq_spec_run cmp eqe s (o :: os) s2 (out :: outs).

(** The elements stored in a queue, in array order. *)
Definition pq_elems (q : pq) : list elem :=
  flat_map (fun i => match pq_d q i with Some e => [e] | None => [] end) (seq 1 (pq_size q - 1)).

(** A history respects the caller's obligations at every step. *)
Fixpoint legal (cmp : elem -> elem -> Z) (eqe : elem -> elem -> bool) (q : pq) (ops : list pqop) : Prop :=
  match ops with
  | [] => True
  | o :: os => pq_pre (pq_elems q) o /\
      forall q1 out, pq_step_op cmp eqe q o = Ok (q1, out) -> legal cmp eqe q1 os
  end.

(** Each stored element records the slot it is stored in. *)
Definition pos_exact (q : pq) : Prop :=
  forall k e, 1 <= k < pq_size q -> pq_d q k = Some e -> pq_pos q e = k.

(** The comparison callbacks of the runtime: core/utils/pqueue.c:20
    [in_reverse_order] on unsigned priorities and core/utils/pqueue.c:22-26
    [in_no_particular_order]. *)
Definition in_reverse_order (pri : elem -> Z) (a b : elem) : Z :=
  (if pri b <? pri a then 1 else if pri a <? pri b then -1 else 0)%Z.
Definition in_no_particular_order (a b : elem) : Z := 0%Z.
