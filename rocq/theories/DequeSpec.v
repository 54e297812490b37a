(** Specification of the deque: a list, front first. *)
From Verif Require Import Base Deque.
Open Scope nat_scope.

Definition last_opt (l : list nat) : option nat := hd_error (rev l).
Definition dspec (l : list nat) (o : dop) : list nat * dout :=
  match o with
  | DPushFront _ v => (v :: l, DUnit)
  | DPushBack _ v => (l ++ [v], DUnit)
  | DPopFront => (tl l, DVal (hd_error l))
  | DPopBack => (removelast l, DVal (last_opt l))
  | DPeekFront => (l, DVal (hd_error l))
  | DPeekBack => (l, DVal (last_opt l))
  | DSize => (l, DNum (length l))
  | DIsEmpty => (l, DBool (match l with [] => true | _ => false end))
  end.
Fixpoint dspec_run (l : list nat) (ops : list dop) : list nat * list dout :=
  match ops with
  | [] => (l, [])
  | o :: os => let r := dspec l o in let r' := dspec_run (fst r) os in (fst r', snd r :: snd r')
  end.

(** The allocator's contract: calloc returns an address that is not in use. *)
Definition alloc_ok (d : deq) (o : dop) : Prop :=
  match o with DPushFront a _ | DPushBack a _ => d_heap d a = None | _ => True end.
Fixpoint allocs_ok (d : deq) (ops : list dop) : Prop :=
  match ops with
  | [] => True
  | o :: os => alloc_ok d o /\ match deq_step d o with Ok r => allocs_ok (fst r) os | UB => True end
  end.
