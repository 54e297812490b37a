(** Model of core/utils/hashset/hashset.c and hashset_itr.c. *)
From Verif Require Import Base.

Definition updZ {A} (f : Z -> A) (i : Z) (x : A) : Z -> A := fun j => if Z.eqb j i then x else f j.

(** hashset.c:26-27 *)
Definition prime_1 : Z := 73.
Definition prime_2 : Z := 5009.

(** include/core/utils/hashset/hashset.h:28-36 [hashset_st]; items are pointers
    as numbers, 0 = empty slot, 1 = deleted slot. *)
Record hset := mkHset {
  h_nbits : Z; h_mask : Z; h_cap : Z; h_items : Z -> Z; h_nitems : Z; h_ndel : Z
}.

(** hashset.c:35 and 103: [1 << nbits] is an int shift, undefined from 31 on. *)
Definition shl1 (b : Z) : res Z := if (0 <=? b) && (b <=? 30) then Ok (2 ^ b) else UB.
(** hashset.c:29-46 [hashset_create] (allocation failure is not modelled) *)
Definition hs_create (nbits : Z) : res hset :=
  do! c <- shl1 nbits; Ok (mkHset nbits (c - 1) c (fun _ => 0) 0 0).

(** Index arithmetic is on size_t: lines 66, 83, 124, 133, 140, 148. *)
Definition hs_first (mask item : Z) : Z := Z.land mask ((prime_1 * item) mod two64).
Definition hs_next (mask ii : Z) : Z := Z.land mask ((ii + prime_2) mod two64).
(** Reading a slot outside the table is undefined. *)
Definition hs_get (s : hset) (i : Z) : res Z :=
  if (0 <=? i) && (i <? h_cap s) then Ok (h_items s i) else UB.

(** hashset.c:60-94 [hashset_add_member], the search loop of lines 73-85.
    [fuel] bounds the iterations: running out of it (an endless loop) is UB. *)
Fixpoint hs_add_search (fuel : nat) (s : hset) (item ii avail : Z) : res (option (Z * Z)) :=
  match fuel with
  | O => UB
  | S f =>
      do! v <- hs_get s ii;
      if v =? 0 then Ok (Some (ii, avail))
      else if v =? item then Ok None
      else hs_add_search f s item (hs_next (h_mask s) ii)
             (if (v =? 1) && (avail <? 0) then ii else avail)
  end.
Definition hs_fuel (s : hset) : nat := S (Z.to_nat (h_cap s)).
Definition hs_add_member (s : hset) (item : Z) : res (hset * Z) :=
  if (item =? 0) || (item =? 1) then Ok (s, -1)
  else
    do! r <- hs_add_search (hs_fuel s) s item (hs_first (h_mask s) item) (-1);
    match r with
    | None => Ok (s, 0)
    | Some (ii, avail) =>
        if 0 <=? avail then
          Ok (mkHset (h_nbits s) (h_mask s) (h_cap s) (updZ (h_items s) avail item) (h_nitems s + 1) (h_ndel s - 1), 1)
        else
          Ok (mkHset (h_nbits s) (h_mask s) (h_cap s) (updZ (h_items s) ii item) (h_nitems s + 1) (h_ndel s), 1)
    end.

(** Conversion of a size_t to float: round to nearest, ties to even, 24 bits. *)
Definition to_float (n : Z) : Z :=
  let e := Z.log2 n - 23 in
  if e <=? 0 then n
  else let g := 2 ^ e in
       let q := n / g in let r := n mod g in
       if (g <? 2 * r) || ((2 * r =? g) && Z.odd q) then (q + 1) * g else q * g.
(** hashset.c:100: 0.85f is 14260634 / 2^24; the capacity is a power of two, so
    the product is exact; compared after scaling both sides by 2^24. *)
Definition needs_rehash (n cap : Z) : bool := cap * 14260634 <=? to_float n * 2 ^ 24.

(** hashset.c:109-111: reinsertion loop over the old table *)
Fixpoint hs_reinsert (old : Z -> Z) (ii : Z) (n : nat) (s : hset) : res hset :=
  match n with
  | O => Ok s
  | S k => do! r <- hs_add_member s (old ii); hs_reinsert old (ii + 1) k (fst r)
  end.
(** hashset.c:96-115 [maybe_rehash] *)
Definition hs_maybe_rehash (s : hset) : res hset :=
  if needs_rehash (h_nitems s + h_ndel s) (h_cap s) then
    do! c <- shl1 (h_nbits s + 1);
    hs_reinsert (h_items s) 0 (Z.to_nat (h_cap s)) (mkHset (h_nbits s + 1) (c - 1) c (fun _ => 0) 0 0)
  else Ok s.
(** hashset.c:117-121 [hashset_add] *)
Definition hs_add (s : hset) (item : Z) : res (hset * Z) :=
  do! r <- hs_add_member s item; do! s2 <- hs_maybe_rehash (fst r); Ok (s2, snd r).

(** The search loops of hashset.c:126-135 and 142-149 *)
Fixpoint hs_find (fuel : nat) (s : hset) (item ii : Z) : res (option Z) :=
  match fuel with
  | O => UB
  | S f =>
      do! v <- hs_get s ii;
      if v =? 0 then Ok None
      else if v =? item then Ok (Some ii)
      else hs_find f s item (hs_next (h_mask s) ii)
  end.
(** hashset.c:123-137 [hashset_remove]; nitems is a size_t (wraps at 0) *)
Definition hs_remove (s : hset) (item : Z) : res (hset * Z) :=
  do! r <- hs_find (hs_fuel s) s item (hs_first (h_mask s) item);
  match r with
  | Some ii => Ok (mkHset (h_nbits s) (h_mask s) (h_cap s) (updZ (h_items s) ii 1)
                     ((h_nitems s - 1) mod two64) (h_ndel s + 1), 1)
  | None => Ok (s, 0)
  end.
(** hashset.c:139-150 [hashset_is_member] *)
Definition hs_is_member (s : hset) (item : Z) : res Z :=
  do! r <- hs_find (hs_fuel s) s item (hs_first (h_mask s) item);
  Ok (match r with Some _ => 1 | None => 0 end).

Inductive hop := HAdd (x : Z) | HRemove (x : Z) | HIsMember (x : Z) | HNum.
Definition hs_step (s : hset) (o : hop) : res (hset * Z) :=
  match o with
  | HAdd x => hs_add s x
  | HRemove x => hs_remove s x
  | HIsMember x => do! b <- hs_is_member s x; Ok (s, b)
  | HNum => Ok (s, h_nitems s)
  end.
Fixpoint hs_run (s : hset) (ops : list hop) : res (hset * list Z) :=
  match ops with
  | [] => Ok (s, [])
  | o :: os => do! r <- hs_step s o; do! r' <- hs_run (fst r) os; Ok (fst r', snd r :: snd r')
  end.

(** hashset_itr.c:58-76 [hashset_iterator_next]; the state is [itr->index]. *)
Fixpoint itr_scan (fuel : nat) (s : hset) (index : Z) : res (option Z) :=
  match fuel with
  | O => UB
  | S f =>
      if index <? h_cap s then
        do! v <- hs_get s index;
        if negb (v =? 0) && negb (v =? 1) then Ok (Some index) else itr_scan f s (index + 1)
      else Ok None
  end.
Definition itr_next (s : hset) (itr : Z) : res (option Z) :=
  let index := itr + 1 in
  if (h_nitems s =? 0) || (index =? h_cap s) then Ok None else itr_scan (hs_fuel s) s index.
(** hashset_itr.c:37-54 [hashset_iterator_has_next] *)
Definition itr_has_next (s : hset) (itr : Z) : res bool :=
  do! r <- itr_next s itr; Ok (match r with Some _ => true | None => false end).
(** hashset_itr.c:78-84 [hashset_iterator_value] *)
Definition itr_value (s : hset) (itr : Z) : res Z :=
  if itr <? 0 then UB else do! v <- hs_get s itr; if (v =? 0) || (v =? 1) then UB else Ok v.
(** The loop documented in hashset_itr.h:33-38: next until -1, collecting values. *)
Fixpoint itr_all (fuel : nat) (s : hset) (itr : Z) : res (list Z) :=
  match fuel with
  | O => UB
  | S f =>
      do! r <- itr_next s itr;
      match r with
      | None => Ok []
      | Some i => do! v <- itr_value s i; do! vs <- itr_all f s i; Ok (v :: vs)
      end
  end.
