(** What the documentation of the command-line options promises
    (core/reactor_common.c:873-877): a duration and one of the units "nsec, usec,
    msec, sec, minute, hour, day, week, or the plurals of those". *)
From Verif Require Import Base CText.
From Coq Require Import String.
Open Scope Z_scope.

(** The decimal value of a list of digits, most significant first. *)
Fixpoint decimal (ds : list Z) : Z :=
  match ds with
  | [] => 0
  | d :: r => d * 10 ^ Z.of_nat (List.length r) + decimal r
  end.
(** [writes n s]: the string [s] is the number [n] in decimal digits. *)
Definition writes (n : Z) (s : text) : Prop :=
  exists ds, ds <> [] /\ Forall (fun d => 0 <= d <= 9) ds /\ s = map (fun d => d + 48) ds /\ n = decimal ds.

Local Open Scope string_scope.
Definition nanoseconds (n : Z) (u : string) : option Z :=
  if String.eqb u "nsec" then Some n else
   if String.eqb u "nsecs" then Some n else
   if String.eqb u "usec" then Some (n * 1000)%Z else
   if String.eqb u "usecs" then Some (n * 1000)%Z else
   if String.eqb u "msec" then Some (n * 1000000)%Z else
   if String.eqb u "msecs" then Some (n * 1000000)%Z else
   if String.eqb u "sec" then Some (n * 1000000000)%Z else
   if String.eqb u "secs" then Some (n * 1000000000)%Z else
   if String.eqb u "minute" then Some (n * 60 * 1000000000)%Z else
   if String.eqb u "minutes" then Some (n * 60 * 1000000000)%Z else
   if String.eqb u "hour" then Some (n * 3600 * 1000000000)%Z else
   if String.eqb u "hours" then Some (n * 3600 * 1000000000)%Z else
   if String.eqb u "day" then Some (n * 24 * 3600 * 1000000000)%Z else
   if String.eqb u "days" then Some (n * 24 * 3600 * 1000000000)%Z else
   if String.eqb u "week" then Some (n * 7 * 24 * 3600 * 1000000000)%Z else
   if String.eqb u "weeks" then Some (n * 7 * 24 * 3600 * 1000000000)%Z else None.
