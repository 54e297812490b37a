(** Model of core/utils/vector.c: growable array of pointers. *)
From Verif Require Import Base Pqueue.
Open Scope nat_scope.

(** core/utils/vector.c:13-15 *)
Definition SCALE_FACTOR := 2.
Definition SHRINK_RATIO := 4.
Definition REQUIRED_VOTES := 15.

(** include/core/utils/vector.h:15-24 [vector_t].  Pointers are numbers, 0 is
    NULL; the pointers start/next/end are offsets; a cell holding [None] was
    never written (reading it is reading indeterminate memory).
    Simplification: [votes] and [votes_required] are unbounded. *)
Record vec := mkVec {
  v_cells : nat -> option nat;
  v_next : nat;      (* next - start: number of elements *)
  v_cap : nat;       (* end - start *)
  v_req : nat;       (* votes_required *)
  v_votes : nat
}.

(** vector.c:20-29 [vector_new] *)
Definition vec_new (n : nat) : vec := mkVec (fun _ => None) 0 n REQUIRED_VOTES 0.

(** vector.c:149-162 [vector_resize].  realloc keeps the common prefix, new cells are
    indeterminate.  The assertion on line 155 failing is an abnormal outcome (UB here). *)
Definition vec_resize (v : vec) (c : nat) : res vec :=
  if c =? 0 then Ok v
  else if c <? v_next v then UB
  else Ok (mkVec (fun i => if (i <? v_cap v) && (i <? c) then v_cells v i else None)
                 (v_next v) c (v_req v) 0).

(** Writing through a pointer into the array: out of bounds is undefined. *)
Definition vec_store (v : vec) (i x : nat) : res vec :=
  if i <? v_cap v then Ok (mkVec (upd (v_cells v) i (Some x)) (v_next v) (v_cap v) (v_req v) (v_votes v))
  else UB.
Definition vec_set_next (v : vec) (n : nat) : vec := mkVec (v_cells v) n (v_cap v) (v_req v) (v_votes v).
Definition vec_inc_req (v : vec) : vec := mkVec (v_cells v) (v_next v) (v_cap v) (S (v_req v)) (v_votes v).

(** vector.c:45-51 [vector_push] *)
Definition vec_push (v : vec) (x : nat) : res vec :=
  do! v1 <- (if v_next v =? v_cap v then vec_resize (vec_inc_req v) (v_cap v * SCALE_FACTOR) else Ok v);
  do! v2 <- vec_store v1 (v_next v1) x;
  Ok (vec_set_next v2 (S (v_next v2))).

(** vector.c:60-70 [vector_pushall], loop of lines 65-68; the assertion that the
    elements are not NULL failing is UB. *)
Fixpoint vec_store_all (v : vec) (base : nat) (xs : list nat) : res vec :=
  match xs with
  | [] => Ok v
  | x :: r => if x =? 0 then UB else do! v1 <- vec_store v base x; vec_store_all v1 (S base) r
  end.
Definition vec_pushall (v : vec) (xs : list nat) : res vec :=
  let required_end := v_next v + length xs in
  do! v1 <- (if v_cap v <? required_end then vec_resize v (required_end * SCALE_FACTOR) else Ok v);
  do! v2 <- vec_store_all v1 (v_next v1) xs;
  Ok (vec_set_next v2 (v_next v2 + length xs)).

(** vector.c:77-88 [vector_pop]: [None] is the NULL returned for an empty vector,
    [Some c] the content of the popped cell. *)
Definition vec_pop (v : vec) : res (vec * option (option nat)) :=
  if v_next v =? 0 then
    do! v1 <- (if v_req v <=? v_votes v then
                 let c := v_cap v / SCALE_FACTOR in
                 if 0 <? c then vec_resize v c else Ok v
               else Ok v);
    Ok (v1, None)
  else
    let n := v_next v - 1 in
    if n <? v_cap v then Ok (vec_set_next v n, Some (v_cells v n)) else UB.

(** vector.c:103-120 [vector_at], the loop of lines 112-114 *)
Fixpoint grow_to (fuel new_size idx : nat) : res nat :=
  match fuel with
  | O => UB
  | S f => if new_size <=? idx then grow_to f (new_size * SCALE_FACTOR) idx else Ok new_size
  end.
(** vector.c:103-120 [vector_at]: the returned pointer is [start + idx]. *)
Definition vec_at (v : vec) (idx : nat) : res vec :=
  let v1 := if v_next v <? idx + 1 then vec_set_next v (idx + 1) else v in
  if v_cap v1 <=? v_next v1 then
    do! c <- grow_to (S idx) (v_cap v1 * SCALE_FACTOR) idx;
    (* line 115: vector_resize; the cells beyond the old capacity are not filled *)
    vec_resize (vec_inc_req v1) c
  else Ok v1.

(** vector.c:128 [vector_size] *)
Definition vec_size (v : vec) : nat := v_next v.
(** vector.c:138-142 [vector_vote] *)
Definition vec_vote (v : vec) : vec :=
  let vote := if v_next v * SHRINK_RATIO <=? v_cap v then 1 else 0 in
  mkVec (v_cells v) (v_next v) (v_cap v) (v_req v) (vote * v_votes v + vote).

Inductive vop := VPush (x : nat) | VPushAll (xs : list nat) | VPop | VAtGet (i : nat) | VAtSet (i x : nat) | VSize | VVote.
Inductive vout := VUnit | VPopped (r : option (option nat)) | VCell (c : option nat) | VNum (n : nat).
Definition vec_step (v : vec) (o : vop) : res (vec * vout) :=
  match o with
  | VPush x => do! v1 <- vec_push v x; Ok (v1, VUnit)
  | VPushAll xs => do! v1 <- vec_pushall v xs; Ok (v1, VUnit)
  | VPop => do! r <- vec_pop v; Ok (fst r, VPopped (snd r))
  | VAtGet i => do! v1 <- vec_at v i; if i <? v_cap v1 then Ok (v1, VCell (v_cells v1 i)) else UB
  | VAtSet i x => do! v1 <- vec_at v i; do! v2 <- vec_store v1 i x; Ok (v2, VUnit)
  | VSize => Ok (v, VNum (vec_size v))
  | VVote => Ok (vec_vote v, VUnit)
  end.
Fixpoint vec_run (v : vec) (ops : list vop) : res (vec * list vout) :=
  match ops with
  | [] => Ok (v, [])
  | o :: os => do! r <- vec_step v o; do! r' <- vec_run (fst r) os; Ok (fst r', snd r :: snd r')
  end.
