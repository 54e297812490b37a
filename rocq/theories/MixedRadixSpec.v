(** Specification of permuted mixed-radix numbers (include/core/mixed_radix.h). *)
From Verif Require Import Base MixedRadix.
From Coq Require Import Permutation.
Open Scope Z_scope.

(** Specification: positional value of the digits listed in [l], lowest first. *)
Fixpoint value (l : list nat) (radix digits : nat -> Z) : Z :=
  match l with [] => 0 | d :: r => digits d + radix d * value r radix digits end.
Fixpoint product (l : list nat) (radix : nat -> Z) : Z :=
  match l with [] => 1 | d :: r => radix d * product r radix end.
(** A well-formed number: radixes positive ints, digits below them, the permutation
    lists every digit once. *)
Record mr_ok (m : mradix) : Prop := {
  ok_size : (0 < mr_size m)%nat;
  ok_radix : forall i, (i < mr_size m)%nat -> 1 <= mr_radix m i <= INT_MAX;
  ok_digit : forall i, (i < mr_size m)%nat -> 0 <= mr_digits m i < mr_radix m i;
  ok_perm : Permutation (mr_perm m) (seq 0 (mr_size m))
}.
Definition same_digits (m m' : mradix) : Prop := forall i, (i < mr_size m)%nat -> mr_digits m i = mr_digits m' i.

