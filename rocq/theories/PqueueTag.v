(** Model of core/utils/pqueue_tag.c: priority queue of tags, with the elements
    allocated by the queue itself (as used for in-transit messages by the RTI). *)
From Verif Require Import Base Tag Pqueue.
Open Scope nat_scope.

(** [tq_tag] is the [tag] field of the elements, [tq_next] the next address handed
    out by malloc (addresses are never reused here: freeing is not modelled
    beyond the element leaving the queue). *)
Record tq := mkTq { tq_q : pq; tq_tag : elem -> tag; tq_next : elem }.

(** pqueue_tag.c:71-75 [pqueue_tag_compare] on element pointers *)
Definition tcmp (tg : elem -> tag) (a b : elem) : Z := tag_compare (tg a) (tg b).
(** pqueue_tag.c:39-41 [pqueue_tag_matches] *)
Definition tmatch (tg : elem -> tag) (a b : elem) : bool := (tag_compare (tg a) (tg b) =? 0)%Z.

(** pqueue_tag.c:77-80 [pqueue_tag_init] *)
Definition tq_init (n : nat) : tq := mkTq (pq_init n (fun _ => 0)) (fun _ => NEVER_TAG) 1.
(** pqueue_tag.c:97 [pqueue_tag_size] *)
Definition tq_size (s : tq) : nat := pq_count (tq_q s).
(** pqueue_tag.c:101-106 [pqueue_tag_insert_tag] (malloc assumed to succeed) *)
Definition tq_insert_tag (s : tq) (t : tag) : res (tq * Z) :=
  let d := tq_next s in
  let tg := upd (tq_tag s) d t in
  do! q <- pq_insert (tcmp tg) (tq_q s) d;
  Ok (mkTq q tg (S d), 0%Z).
(** pqueue_tag.c:108-113 [pqueue_tag_find_with_tag]: the key is an element on the
    stack, i.e. an address that is not in the queue. *)
Definition tq_find_with_tag (s : tq) (t : tag) : res (option elem) :=
  pq_find_same (tcmp (upd (tq_tag s) (tq_next s) t)) (tq_q s) (tq_next s).
(** pqueue_tag.c:119-125 [pqueue_tag_insert_if_no_match] *)
Definition tq_insert_if_no_match (s : tq) (t : tag) : res (tq * Z) :=
  do! r <- tq_find_with_tag s t;
  match r with
  | None => tq_insert_tag s t
  | Some _ => Ok (s, 1%Z)
  end.
(** pqueue_tag.c:129-135 [pqueue_tag_peek_tag] *)
Definition tq_peek_tag (s : tq) : res tag :=
  do! r <- pq_peek (tq_q s);
  match r with None => Ok FOREVER_TAG | Some e => Ok (tq_tag s e) end.
(** pqueue_tag.c:139-149 [pqueue_tag_pop_tag] *)
Definition tq_pop_tag (s : tq) : res (tq * tag) :=
  do! r <- pq_pop (tcmp (tq_tag s)) (tq_q s);
  let s' := mkTq (fst r) (tq_tag s) (tq_next s) in
  match snd r with None => Ok (s', FOREVER_TAG) | Some e => Ok (s', tq_tag s e) end.
(** pqueue_tag.c:153-159 [pqueue_tag_remove_up_to], loop of lines 155-158 *)
Fixpoint remove_up_to_loop (fuel : nat) (s : tq) (head t : tag) : res tq :=
  match fuel with
  | O => UB
  | S f =>
      if (tag_compare head FOREVER_TAG <? 0)%Z && (tag_compare head t <=? 0)%Z then
        do! r <- tq_pop_tag s;
        do! h <- tq_peek_tag (fst r);
        remove_up_to_loop f (fst r) h t
      else Ok s
  end.
Definition tq_remove_up_to (s : tq) (t : tag) : res tq :=
  do! h <- tq_peek_tag s;
  remove_up_to_loop (S (tq_size s)) s h t.

Inductive tqop := TInsert (t : tag) | TInsertNew (t : tag) | TPeek | TPop | TRemoveUpTo (t : tag) | TSize.
Inductive tqout := TRet (z : Z) | TTag (t : tag) | TNat (n : nat) | TUnit.
Definition tq_step (s : tq) (o : tqop) : res (tq * tqout) :=
  match o with
  | TInsert t => do! r <- tq_insert_tag s t; Ok (fst r, TRet (snd r))
  | TInsertNew t => do! r <- tq_insert_if_no_match s t; Ok (fst r, TRet (snd r))
  | TPeek => do! t <- tq_peek_tag s; Ok (s, TTag t)
  | TPop => do! r <- tq_pop_tag s; Ok (fst r, TTag (snd r))
  | TRemoveUpTo t => do! s' <- tq_remove_up_to s t; Ok (s', TUnit)
  | TSize => Ok (s, TNat (tq_size s))
  end.
Fixpoint tq_run (s : tq) (ops : list tqop) : res (tq * list tqout) :=
  match ops with
  | [] => Ok (s, [])
  | o :: os => do! r <- tq_step s o; do! r' <- tq_run (fst r) os; Ok (fst r', snd r :: snd r')
  end.
