(** Model of core/utils/pqueue_base.c: the array-based priority queue. *)
From Verif Require Import Base.
Open Scope nat_scope.

(** Elements are pointers; the queue only ever looks at them through its
    callbacks, so they are plain identifiers here. *)
Definition elem := nat.

(** Function update, the model of a store. *)
Definition upd {A} (f : nat -> A) (i : nat) (x : A) : nat -> A :=
  fun j => if Nat.eqb j i then x else f j.

(** include/core/utils/pqueue_base.h:73-87 [pqueue_t] and the [pos] fields kept in
    the elements (written by the setpos callback, read by getpos).
    [pq_d i = None] is a cell that was never written.  [pq_pos] is a store shared by
    all queues holding the elements.  Simplification: indices are [nat]; the
    [int] recursion index of the search functions is assumed not to overflow. *)
Record pq := mkPq {
  pq_size : nat;               (* size: number of elements + 1 *)
  pq_avail : nat;              (* allocated cells *)
  pq_step : nat;               (* growth stepping *)
  pq_d : nat -> option elem;   (* the array *)
  pq_pos : elem -> nat         (* getpos / setpos *)
}.

(** Array accesses: out of bounds or reading a cell never written is undefined. *)
Definition rd (q : pq) (i : nat) : res elem :=
  if i <? pq_avail q then match pq_d q i with Some e => Ok e | None => UB end else UB.
Definition wr (q : pq) (i : nat) (e : elem) : res pq :=
  if i <? pq_avail q
  then Ok (mkPq (pq_size q) (pq_avail q) (pq_step q) (upd (pq_d q) i (Some e)) (pq_pos q))
  else UB.
Definition setpos (q : pq) (e : elem) (i : nat) : pq :=
  mkPq (pq_size q) (pq_avail q) (pq_step q) (pq_d q) (upd (pq_pos q) e i).
Definition set_size (q : pq) (n : nat) : pq :=
  mkPq n (pq_avail q) (pq_step q) (pq_d q) (pq_pos q).

(** pqueue_base.c:52-54 *)
Definition LEFT (i : nat) := 2 * i.
Definition RIGHT (i : nat) := 2 * i + 1.
Definition PARENT (i : nat) := i / 2.

(** pqueue_base.c:128-150 [pqueue_init] (allocation assumed to succeed); [pos]
    is whatever the elements' fields hold. *)
Definition pq_init (n : nat) (pos : elem -> nat) : pq :=
  mkPq 1 (n + 1) (n + 1) (fun _ => None) pos.

(** pqueue_base.c:157-162 [pqueue_size] *)
Definition pq_count (q : pq) : nat := pq_size q - 1.

Section Queue.
(** [cmp a b] is cmppri(getpri(a), getpri(b)). *)
Variable cmp : elem -> elem -> Z.
(** [eqe a b] is eqelem(a, b) <> 0. *)
Variable eqe : elem -> elem -> bool.

(** pqueue_base.c:164-174 [maxchild]; 0 means no child. *)
Definition maxchild (q : pq) (i : nat) : res nat :=
  let c := LEFT i in
  if pq_size q <=? c then Ok 0
  else if c + 1 <? pq_size q then
    do! a <- rd q c;
    do! b <- rd q (c + 1);
    Ok (if (cmp a b =? 1)%Z then c + 1 else c)
  else Ok c.

(** pqueue_base.c:176-190 [bubble_up], loop of lines 181-185.  [fuel] only makes
    the definition total: running out is UB, and no theorem hides it. *)
Fixpoint bubble_loop (fuel : nat) (q : pq) (i : nat) (m : elem) : res (pq * nat) :=
  match fuel with
  | O => UB
  | S f =>
      if 1 <? i then
        do! p <- rd q (PARENT i);
        if (cmp p m =? 1)%Z then
          do! q1 <- wr q i p;
          bubble_loop f (setpos q1 p i) (PARENT i) m
        else Ok (q, i)
      else Ok (q, i)
  end.
(** pqueue_base.c:176-190 [bubble_up] *)
Definition bubble_up (q : pq) (i : nat) : res pq :=
  do! m <- rd q i;
  do! r <- bubble_loop (S i) q i m;
  let '(q1, j) := r in
  do! q2 <- wr q1 j m;
  Ok (setpos q2 m j).

(** pqueue_base.c:192-205 [percolate_down], loop of lines 197-201 *)
Fixpoint percolate_loop (fuel : nat) (q : pq) (i : nat) (m : elem) : res (pq * nat) :=
  match fuel with
  | O => UB
  | S f =>
      do! c <- maxchild q i;
      if c =? 0 then Ok (q, i)
      else
        do! x <- rd q c;
        if (cmp m x =? 1)%Z then
          do! q1 <- wr q i x;
          percolate_loop f (setpos q1 x i) c m
        else Ok (q, i)
  end.
(** pqueue_base.c:192-205 [percolate_down] *)
Definition percolate_down (q : pq) (i : nat) : res pq :=
  do! m <- rd q i;
  do! r <- percolate_loop (S (pq_size q)) q i m;
  let '(q1, j) := r in
  do! q2 <- wr q1 j m;
  Ok (setpos q2 m j).

(** pqueue_base.c:211-233 [pqueue_insert] (reallocation assumed to succeed) *)
Definition pq_insert (q : pq) (e : elem) : res pq :=
  let q1 := if pq_avail q <=? pq_size q
            then mkPq (pq_size q) (pq_size q + pq_step q) (pq_step q) (pq_d q) (pq_pos q)
            else q in
  let i := pq_size q1 in
  do! q2 <- wr (set_size q1 (S i)) i e;
  bubble_up q2 i.

(** pqueue_base.c:235-246 [pqueue_remove] *)
Definition pq_remove (q : pq) (e : elem) : res pq :=
  if pq_size q =? 1 then Ok q
  else
    let posn := pq_pos q e in
    let q1 := set_size q (pq_size q - 1) in
    do! l <- rd q1 (pq_size q1);
    do! q2 <- wr q1 posn l;
    if (cmp e l =? 1)%Z then bubble_up q2 posn else percolate_down q2 posn.

(** pqueue_base.c:248-259 [pqueue_pop]; [None] is NULL *)
Definition pq_pop (q : pq) : res (pq * option elem) :=
  if pq_size q =? 1 then Ok (q, None)
  else
    do! h <- rd q 1;
    let q1 := set_size q (pq_size q - 1) in
    do! l <- rd q1 (pq_size q1);
    do! q2 <- wr q1 1 l;
    do! q3 <- percolate_down q2 1;
    Ok (q3, Some h).

(** pqueue_base.c:282-288 [pqueue_peek] *)
Definition pq_peek (q : pq) : res (option elem) :=
  if pq_size q =? 1 then Ok None else do! h <- rd q 1; Ok (Some h).

(** pqueue_base.c:56-87 [find_same_priority] / 89-126 [find_equal_same_priority].
    [hit c] is the test on line 78 (cmppri = 0) respectively line 111 (cmppri = 0 and
    eqelem). *)
Fixpoint find_loop (fuel : nat) (q : pq) (hit : elem -> bool) (e : elem) (i : nat) : res (option elem) :=
  match fuel with
  | O => UB
  | S f =>
      if pq_size q <=? i then Ok None
      else
        do! c <- rd q i;
        if (cmp c e =? 1)%Z then Ok None
        else if hit c then Ok (Some c)
        else
          do! r <- find_loop f q hit e (LEFT i);
          match r with
          | Some x => Ok (Some x)
          | None => find_loop f q hit e (RIGHT i)
          end
  end.
(** pqueue_base.c:207 [pqueue_find_same_priority] *)
Definition pq_find_same (q : pq) (e : elem) : res (option elem) :=
  find_loop (S (pq_size q)) q (fun c => (cmp c e =? 0)%Z) e 1.
(** pqueue_base.c:209 [pqueue_find_equal_same_priority] *)
Definition pq_find_equal_same (q : pq) (e : elem) : res (option elem) :=
  find_loop (S (pq_size q)) q (fun c => (cmp c e =? 0)%Z && eqe c e) e 1.

(** Move all elements of [src] into [dest], the loops of pqueue_base.c:268-274.
    The two queues share the element store, so the positions written through one
    are seen through the other. *)
Fixpoint drain (fuel : nat) (dest src : pq) : res (pq * pq) :=
  match fuel with
  | O => UB
  | S f =>
      do! r <- pq_pop src;
      let '(src1, o) := r in
      match o with
      | None => Ok (mkPq (pq_size dest) (pq_avail dest) (pq_step dest) (pq_d dest) (pq_pos src1), src1)
      | Some x =>
          let dest0 := mkPq (pq_size dest) (pq_avail dest) (pq_step dest) (pq_d dest) (pq_pos src1) in
          do! dest1 <- pq_insert dest0 x;
          drain f dest1 (mkPq (pq_size src1) (pq_avail src1) (pq_step src1) (pq_d src1) (pq_pos dest1))
      end
  end.
(** pqueue_base.c:261-280 [pqueue_empty_into]: returns (dest, src). *)
Definition pq_empty_into (dest src : pq) : res (pq * pq) :=
  if pq_size src <=? pq_size dest then drain (pq_size src) dest src
  else do! r <- drain (pq_size dest) src dest; let '(s, d) := r in Ok (s, d).

(** pqueue_base.c:300-319 [pqueue_print]: pops all elements of a shallow copy
    (same element pointers, so the setpos calls hit the original elements);
    returns the printed elements and the resulting position store. *)
Fixpoint print_loop (fuel : nat) (dup : pq) : res (list elem * (elem -> nat)) :=
  match fuel with
  | O => UB
  | S f =>
      do! r <- pq_pop dup;
      let '(dup1, o) := r in
      match o with
      | None => Ok ([], pq_pos dup1)
      | Some x => do! r' <- print_loop f dup1; let '(l, p) := r' in Ok (x :: l, p)
      end
  end.
Definition pq_print (q : pq) : res (pq * list elem) :=
  do! r <- print_loop (pq_size q) (mkPq (pq_size q) (pq_avail q) (pq_step q) (pq_d q) (pq_pos q));
  let '(l, p) := r in
  Ok (mkPq (pq_size q) (pq_avail q) (pq_step q) (pq_d q) p, l).

(** pqueue_base.c:321-351 [subtree_is_valid] *)
Fixpoint subtree_valid (fuel : nat) (q : pq) (i : nat) : res bool :=
  match fuel with
  | O => UB
  | S f =>
      do! x <- (if LEFT i <? pq_size q then
                  do! a <- rd q i; do! b <- rd q (LEFT i);
                  if (cmp a b =? 1)%Z then Ok false else subtree_valid f q (LEFT i)
                else Ok true);
      if x then
        (if RIGHT i <? pq_size q then
           do! a <- rd q i; do! b <- rd q (RIGHT i);
           if (cmp a b =? 1)%Z then Ok false else subtree_valid f q (RIGHT i)
         else Ok true)
      else Ok false
  end.
(** pqueue_base.c:353 [pqueue_is_valid] *)
Definition pq_is_valid (q : pq) : res bool := subtree_valid (S (pq_size q)) q 1.

(** Histories. *)
Inductive pqop := OInsert (e : elem) | OPop | ORemove (e : elem) | OPeek | OSize | OFindSame (e : elem) | OFindEqual (e : elem).
Inductive pqout := OutUnit | OutElem (o : option elem) | OutNat (n : nat).
Definition pq_step_op (q : pq) (o : pqop) : res (pq * pqout) :=
  match o with
  | OInsert e => do! q1 <- pq_insert q e; Ok (q1, OutUnit)
  | OPop => do! r <- pq_pop q; Ok (fst r, OutElem (snd r))
  | ORemove e => do! q1 <- pq_remove q e; Ok (q1, OutUnit)
  | OPeek => do! x <- pq_peek q; Ok (q, OutElem x)
  | OSize => Ok (q, OutNat (pq_count q))
  | OFindSame e => do! x <- pq_find_same q e; Ok (q, OutElem x)
  | OFindEqual e => do! x <- pq_find_equal_same q e; Ok (q, OutElem x)
  end.
Fixpoint pq_run (q : pq) (ops : list pqop) : res (pq * list pqout) :=
  match ops with
  | [] => Ok (q, [])
  | o :: os =>
      do! r <- pq_step_op q o;
      do! r' <- pq_run (fst r) os;
      Ok (fst r', snd r :: snd r')
  end.
End Queue.
