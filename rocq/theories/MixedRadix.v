(** Model of core/mixed_radix.c. *)
From Verif Require Import Base Pqueue.
Open Scope Z_scope.

(** include/core/mixed_radix.h:105-110 [mixed_radix_int_t]: arrays as functions
    from the digit index, [mr_perm] the permutation array as a list. *)
Record mradix := mkMR { mr_size : nat; mr_digits : nat -> Z; mr_radix : nat -> Z; mr_perm : list nat }.

Definition INT_MAX := 2147483647.
Definition c_int (z : Z) : res Z := if (- INT_MAX - 1 <=? z) && (z <=? INT_MAX) then Ok z else UB.

(** mixed_radix.c:42-59 [mixed_radix_incr]: the loop walks the permutation.
    [i] counts the iterations (for the final store to [digits[i - 1]]). *)
Fixpoint mr_loop (perm : list nat) (i : nat) (radix digits : nat -> Z) : res (nat -> Z) :=
  match perm with
  | [] => Ok (upd digits (i - 1)%nat 0)
  | d :: rest =>
      do! v <- c_int (digits d + 1);
      if v >=? radix d then mr_loop rest (S i) radix (upd digits d 0)
      else Ok (upd digits d v)
  end.
Definition mr_incr (m : mradix) : res mradix :=
  if (mr_size m =? 0)%nat then UB
  else do! ds <- mr_loop (mr_perm m) 0 (mr_radix m) (mr_digits m);
       Ok (mkMR (mr_size m) ds (mr_radix m) (mr_perm m)).

(** mixed_radix.c:69-80 [mixed_radix_parent], loop from index [i], [k] iterations left *)
Fixpoint mr_sum (k i : nat) (radix digits : nat -> Z) (result factor : Z) : res Z :=
  match k with
  | O => Ok result
  | S k' =>
      do! p <- c_int (factor * digits i);
      do! r <- c_int (result + p);
      do! f <- c_int (factor * radix i);
      mr_sum k' (S i) radix digits r f
  end.
Definition mr_parent (m : mradix) (n : nat) : res Z :=
  if (mr_size m =? 0)%nat then UB else mr_sum (mr_size m - n) n (mr_radix m) (mr_digits m) 0 1.
(** mixed_radix.c:86 [mixed_radix_to_int] *)
Definition mr_to_int (m : mradix) : res Z := mr_parent m 0.

Fixpoint mr_incrs (n : nat) (m : mradix) : res mradix :=
  match n with O => Ok m | S k => do! m1 <- mr_incr m; mr_incrs k m1 end.
