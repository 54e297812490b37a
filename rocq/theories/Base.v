(** Common vocabulary of the model: machine ranges, outcomes, sequencing.

    Undefined behaviour of C is a value of its own ([UB]); a theorem that wants
    to exclude it has to say so. *)
From Coq Require Export ZArith List Bool Lia.
From Coq Require Export ZifyBool ZifyNat ZifyN.
Export ListNotations.
Open Scope Z_scope.

(** Outcome of a C expression or call. *)
Inductive res (A : Type) : Type :=
| Ok (a : A)
| UB.
Arguments Ok {A} _.
Arguments UB {A}.

Definition bind {A B} (r : res A) (f : A -> res B) : res B :=
  match r with Ok a => f a | UB => UB end.
Notation "'do!' x <- r ; k" := (bind r (fun x => k))
  (at level 200, x name, r at level 100, k at level 200).

Definition LLONG_MIN : Z := -9223372036854775808.
Definition LLONG_MAX : Z := 9223372036854775807.
Definition UINT_MAX : Z := 4294967295.
Definition two32 : Z := 4294967296.
Definition two64 : Z := 18446744073709551616.

Definition in_int64 (z : Z) : Prop := LLONG_MIN <= z <= LLONG_MAX.
Definition in_int64b (z : Z) : bool := (LLONG_MIN <=? z) && (z <=? LLONG_MAX).
Definition in_uint32 (z : Z) : Prop := 0 <= z <= UINT_MAX.
Definition in_uint32b (z : Z) : bool := (0 <=? z) && (z <=? UINT_MAX).

(** Signed 64-bit addition of ISO C: undefined when the sum is not representable. *)
Definition c_add64 (a b : Z) : res Z :=
  if in_int64b (a + b) then Ok (a + b) else UB.

(** Two's complement reading of an arbitrary integer (what [-fwrapv] gives). *)
Definition wrap64 (z : Z) : Z := (z + 9223372036854775808) mod two64 - 9223372036854775808.
