(** The specification of printed times. *)
From Verif Require Import Base.
From Coq Require Import Ascii String.
Open Scope Z_scope.

Definition num (d : Z) : ascii := ascii_of_nat (48 + Z.to_nat d).

(** [grouped l v]: [l] is the number [v >= 0] in decimal without leading zeros, with a comma before every group of three
    digits. *)
Inductive grouped : list ascii -> Z -> Prop :=
| grouped_1 : forall a, 0 <= a < 10 -> grouped [num a] a
| grouped_2 : forall a b, 0 < a < 10 -> 0 <= b < 10 -> grouped [num a; num b] (10 * a + b)
| grouped_3 : forall a b c, 0 < a < 10 -> 0 <= b < 10 -> 0 <= c < 10 -> grouped [num a; num b; num c] (100 * a + 10 * b + c)
| grouped_more : forall l v a b c, grouped l v -> 0 < v -> 0 <= a < 10 -> 0 <= b < 10 -> 0 <= c < 10 ->
    grouped (l ++ [","%char; num a; num b; num c]) (1000 * v + 100 * a + 10 * b + c).

(** The units, in nanoseconds. *)
Definition unit_ns (name : string) : option Z :=
  if String.eqb name "weeks" then Some 604800000000000 else if String.eqb name "d" then Some 86400000000000
  else if String.eqb name "h" then Some 3600000000000 else if String.eqb name "min" then Some 60000000000
  else if String.eqb name "s" then Some 1000000000 else if String.eqb name "ms" then Some 1000000
  else if String.eqb name "us" then Some 1000 else if String.eqb name "ns" then Some 1 else None.

(** [durations l t]: [l] is a list of positive numbers with units, separated by ", ", and their sum is [t]. *)
Inductive durations : list ascii -> Z -> Prop :=
| durations_one : forall l v name u, grouped l v -> 0 < v -> unit_ns name = Some u ->
    durations (l ++ " "%char :: list_ascii_of_string name) (v * u)
| durations_more : forall l1 t l v name u, durations l1 t -> grouped l v -> 0 < v -> unit_ns name = Some u ->
    durations (l1 ++ [","%char; " "%char] ++ l ++ " "%char :: list_ascii_of_string name) (t + v * u).
