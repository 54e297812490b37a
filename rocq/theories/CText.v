(** C strings and the library functions on them that the modelled code calls.
    A string is the list of its bytes up to the terminating NUL, each in 1..255. *)
From Verif Require Import Base.
From Coq Require Import Ascii String.
Open Scope Z_scope.

Definition text := list Z.

(** A literal of the source text. *)
Fixpoint lit (s : string) : text :=
  match s with
  | EmptyString => []
  | String a r => Z.of_nat (nat_of_ascii a) :: lit r
  end.

(** strcmp(a, b) == 0 *)
Fixpoint str_eqb (a b : text) : bool :=
  match a, b with
  | [], [] => true
  | x :: a, y :: b => (x =? y) && str_eqb a b
  | _, _ => false
  end.

(** strncmp(a, b, n) == 0, for lists without NUL: the comparison ends at the
    first NUL that both strings have. *)
Fixpoint strn_eqb (n : nat) (a b : text) : bool :=
  match n with
  | O => true
  | S n =>
    match a, b with
    | [], [] => true
    | x :: a, y :: b => (x =? y) && strn_eqb n a b
    | _, _ => false
    end
  end.

(** isspace and isdigit in the C locale *)
Definition is_space (c : Z) : bool := (c =? 32) || ((9 <=? c) && (c <=? 13)).
Definition is_digit (c : Z) : bool := (48 <=? c) && (c <=? 57).

Fixpoint skip_space (s : text) : text :=
  match s with c :: r => if is_space c then skip_space r else s | [] => [] end.
(** The number whose leading digits are those at the front of [s]. *)
Fixpoint digits (acc : Z) (s : text) : Z :=
  match s with c :: r => if is_digit c then digits (10 * acc + (c - 48)) r else acc | [] => acc end.
(** The value that strtoll(s, NULL, 10) would have without a bound. *)
Definition number (s : text) : Z :=
  match skip_space s with
  | 45 :: r => - digits 0 r
  | 43 :: r => digits 0 r
  | r => digits 0 r
  end.

(** C17 7.22.1 (1): atoi, atol and atoll are undefined if the value cannot be
    represented. *)
Definition atoll (s : text) : res Z := if in_int64b (number s) then Ok (number s) else UB.
Definition in_int32b (z : Z) : bool := (-2147483648 <=? z) && (z <=? 2147483647).
Definition atoi (s : text) : res Z := if in_int32b (number s) then Ok (number s) else UB.
