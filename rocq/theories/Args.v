(** Model of the processing of command-line arguments, core/reactor_common.c:910-1049
    (a program that is not federated: the options -i and -r are not recognized). *)
From Verif Require Import Base CText.
From Coq Require Import String.
Open Scope Z_scope.

(** core/reactor_common.c:68-88 *)
Record settings := mkSettings { fast : bool; duration : Z; keepalive : bool; workers : Z }.
Definition settings0 : settings := mkSettings false (-1) false 0.

Definition c_mul64 (a b : Z) : res Z := if in_int64b (a * b) then Ok (a * b) else UB.

(** core/reactor_common.c:950-972, with the macros tag/api/tag.h:14-31.  [None]:
    the units are not recognized. *)
Definition unit_factor (u : text) : option Z :=
  if strn_eqb 3 u (lit "sec") then Some 1000000000
  else if strn_eqb 4 u (lit "msec") then Some 1000000
  else if strn_eqb 4 u (lit "usec") then Some 1000
  else if strn_eqb 4 u (lit "nsec") then Some 1
  else if strn_eqb 3 u (lit "min") then Some 60000000000
  else if strn_eqb 4 u (lit "hour") then Some 3600000000000
  else if strn_eqb 3 u (lit "day") then Some 86400000000000
  else if strn_eqb 4 u (lit "week") then Some 604800000000000
  else None.

(** core/reactor_common.c:929-973: [None] is a usage error. *)
Definition timeout_option (time_spec units : text) : res (option Z) :=
  do! d <- atoll time_spec;
  if (d =? 0) && negb (strn_eqb 1 time_spec (lit "0")) then Ok None
  else match unit_factor units with
       | None => Ok None
       | Some f => do! r <- c_mul64 d f; Ok (Some r)
       end.

(** Reading an element of argv outside 0..argc-1 is undefined here (argv[argc] is
    a null pointer, which none of the string functions accepts). *)
Definition arg (argv : list text) (i : nat) : res text :=
  match nth_error argv i with Some a => Ok a | None => UB end.

Definition is_opt (a : text) (names : list string) : bool :=
  existsb (fun n => str_eqb a (lit n)) names.

(** core/reactor_common.c:910-1049 [process_args].  The loop consumes at least one
    argument per iteration, so [fuel = argc] iterations suffice (proved: running
    out of fuel would be [UB]).  The settings changed before an error stay
    changed.  The result is the returned 1 or 0. *)
Fixpoint process_from (fuel : nat) (argv : list text) (i : nat) (s : settings) : res (bool * settings) :=
  let argc := List.length argv in
  if (i <? argc)%nat then
    match fuel with
    | O => UB
    | S fuel =>
      do! a <- arg argv i;
      let i := S i in
      if is_opt a ["-f"; "--fast"]%string then
        if (argc <? i + 1)%nat then Ok (false, s)
        else
          do! v <- arg argv i;
          let s := if str_eqb v (lit "true") then mkSettings true (duration s) (keepalive s) (workers s)
                   else if str_eqb v (lit "false") then mkSettings false (duration s) (keepalive s) (workers s)
                   else s in
          process_from fuel argv (S i) s
      else if is_opt a ["-o"; "--timeout"; "-timeout"]%string then
        if (argc <? i + 2)%nat then Ok (false, s)
        else
          do! t <- arg argv i;
          do! u <- arg argv (S i);
          (* [duration] holds the unscaled number when the units are bad; the
             program exits then. *)
          do! d <- timeout_option t u;
          match d with
          | None => Ok (false, s)
          | Some d => process_from fuel argv (S (S i)) (mkSettings (fast s) d (keepalive s) (workers s))
          end
      else if is_opt a ["-k"; "--keepalive"]%string then
        if (argc <? i + 1)%nat then Ok (false, s)
        else
          do! v <- arg argv i;
          let s := if str_eqb v (lit "true") then mkSettings (fast s) (duration s) true (workers s)
                   else if str_eqb v (lit "false") then mkSettings (fast s) (duration s) false (workers s)
                   else s in
          process_from fuel argv (S i) s
      else if is_opt a ["-w"; "--workers"]%string then
        if (argc <? i + 1)%nat then Ok (false, s)
        else
          do! v <- arg argv i;
          do! n <- atoi v;
          let n := if n <=? 0 then 1 else n in
          process_from fuel argv (S i) (mkSettings (fast s) (duration s) (keepalive s) n)
      else if is_opt a ["--ros-args"]%string then process_from fuel argv i s
      else Ok (false, s)
    end
  else Ok (true, s).

Definition process_args (argv : list text) (s : settings) : res (bool * settings) :=
  process_from (List.length argv) argv 1 s.
