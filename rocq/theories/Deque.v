(** Model of util/deque.c: doubly linked deque with explicit heap. *)
From Verif Require Import Base Pqueue.
Open Scope nat_scope.

(** util/deque.c:60-64 [deque_node_t]; a NULL link is [None]; links may dangle. *)
Record dnode := mkNode { n_next : option nat; n_prev : option nat; n_val : nat }.
(** util/deque.h [deque_t] together with the heap of nodes: an address that is
    not allocated (or was freed) maps to [None], and accessing it is UB. *)
Record deq := mkDeq { d_heap : nat -> option dnode; d_front : option nat; d_back : option nat; d_size : nat }.

(** util/deque.c:70-76 [deque_initialize] *)
Definition deq_init (h : nat -> option dnode) : deq := mkDeq h None None 0.
(** util/deque.c:82-87 [deque_is_empty] *)
Definition deq_is_empty (d : deq) : bool := match d_front d with None => true | Some _ => false end.

Definition deref (d : deq) (a : nat) : res dnode := match d_heap d a with Some n => Ok n | None => UB end.
Definition put (d : deq) (a : nat) (n : dnode) : deq := mkDeq (upd (d_heap d) a (Some n)) (d_front d) (d_back d) (d_size d).
Definition dfree (d : deq) (a : nat) : res deq :=
  match d_heap d a with
  | Some _ => Ok (mkDeq (upd (d_heap d) a None) (d_front d) (d_back d) (d_size d))
  | None => UB
  end.

(** util/deque.c:119-130 [deque_push_front]; [a] is the address calloc returned
    (lines 104-108, [_deque_create_node]; calloc never fails in the model). *)
Definition deq_push_front (d : deq) (a v : nat) : res deq :=
  let d1 := put d a (mkNode None None v) in
  match d_front d1 with
  | None => Ok (mkDeq (d_heap d1) (Some a) (Some a) 1)
  | Some f =>
      do! nf <- deref d1 f;
      let d2 := put d1 f (mkNode (n_next nf) (Some a) (n_val nf)) in
      do! n <- deref d2 a;
      let d3 := put d2 a (mkNode (Some f) (n_prev n) (n_val n)) in
      Ok (mkDeq (d_heap d3) (Some a) (d_back d3) (S (d_size d3)))
  end.
(** util/deque.c:137-148 [deque_push_back] *)
Definition deq_push_back (d : deq) (a v : nat) : res deq :=
  let d1 := put d a (mkNode None None v) in
  match d_back d1 with
  | None => Ok (mkDeq (d_heap d1) (Some a) (Some a) (S (d_size d1)))
  | Some b =>
      do! nb <- deref d1 b;
      let d2 := put d1 b (mkNode (Some a) (n_prev nb) (n_val nb)) in
      do! n <- deref d2 a;
      let d3 := put d2 a (mkNode (n_next n) (Some b) (n_val n)) in
      Ok (mkDeq (d_heap d3) (d_front d3) (Some a) (S (d_size d3)))
  end.
Definition same_ptr (p q : option nat) : bool :=
  match p, q with Some a, Some b => a =? b | None, None => true | _, _ => false end.
(** util/deque.c:155-172 [deque_pop_front]; comparing pointers is on live nodes
    only.  [size--] on a size_t wraps at 0: UB marks that it would. *)
Definition deq_pop_front (d : deq) : res (deq * option nat) :=
  match d_front d with
  | None => Ok (d, None)
  | Some f =>
      do! nf <- deref d f;
      let d1 := if same_ptr (d_front d) (d_back d) then mkDeq (d_heap d) None None (d_size d)
                else mkDeq (d_heap d) (n_next nf) (d_back d) (d_size d) in
      do! d2 <- dfree d1 f;
      if d_size d2 =? 0 then UB else
      Ok (mkDeq (d_heap d2) (d_front d2) (d_back d2) (d_size d2 - 1), Some (n_val nf))
  end.
(** util/deque.c:179-195 [deque_pop_back] *)
Definition deq_pop_back (d : deq) : res (deq * option nat) :=
  match d_back d with
  | None => Ok (d, None)
  | Some b =>
      do! nb <- deref d b;
      let d1 := if same_ptr (d_front d) (d_back d) then mkDeq (d_heap d) None None (d_size d)
                else mkDeq (d_heap d) (d_front d) (n_prev nb) (d_size d) in
      do! d2 <- dfree d1 b;
      if d_size d2 =? 0 then UB else
      Ok (mkDeq (d_heap d2) (d_front d2) (d_back d2) (d_size d2 - 1), Some (n_val nb))
  end.
(** util/deque.c:202-207 [deque_peek_back], 214-219 [deque_peek_front] *)
Definition deq_peek_back (d : deq) : res (option nat) :=
  match d_back d with None => Ok None | Some b => do! n <- deref d b; Ok (Some (n_val n)) end.
Definition deq_peek_front (d : deq) : res (option nat) :=
  match d_front d with None => Ok None | Some f => do! n <- deref d f; Ok (Some (n_val n)) end.

Inductive dop := DPushFront (a v : nat) | DPushBack (a v : nat) | DPopFront | DPopBack | DPeekFront | DPeekBack | DSize | DIsEmpty.
Inductive dout := DUnit | DVal (v : option nat) | DNum (n : nat) | DBool (b : bool).
Definition deq_step (d : deq) (o : dop) : res (deq * dout) :=
  match o with
  | DPushFront a v => do! d1 <- deq_push_front d a v; Ok (d1, DUnit)
  | DPushBack a v => do! d1 <- deq_push_back d a v; Ok (d1, DUnit)
  | DPopFront => do! r <- deq_pop_front d; Ok (fst r, DVal (snd r))
  | DPopBack => do! r <- deq_pop_back d; Ok (fst r, DVal (snd r))
  | DPeekFront => do! v <- deq_peek_front d; Ok (d, DVal v)
  | DPeekBack => do! v <- deq_peek_back d; Ok (d, DVal v)
  | DSize => Ok (d, DNum (d_size d))
  | DIsEmpty => Ok (d, DBool (deq_is_empty d))
  end.
Fixpoint deq_run (d : deq) (ops : list dop) : res (deq * list dout) :=
  match ops with
  | [] => Ok (d, [])
  | o :: os => do! r <- deq_step d o; do! r' <- deq_run (fst r) os; Ok (fst r', snd r :: snd r')
  end.
