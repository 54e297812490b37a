(** Model of the command line of the stand-alone coordinator (RTI),
    core/federated/RTI/main.c, and of how the program starts and exits with it. *)
From Verif Require Import Base CText.
From Coq Require Import String.
Open Scope Z_scope.

(** core/federated/RTI/rti_remote.h:76 *)
Inductive clock_sync_stat := clock_sync_off | clock_sync_init | clock_sync_on.

(** The fields of the global [rti] that the command line sets
    (core/federated/RTI/rti_remote.h:91-161, rti_common.h:74-92). *)
Record settings := mkSettings {
  federation_id : text;
  federates : Z;             (* int32_t number_of_scheduling_nodes *)
  port : Z;                  (* uint16_t user_specified_port *)
  clock : clock_sync_stat;
  period : Z;                (* uint64_t clock_sync_period_ns *)
  exchanges : Z;             (* int32_t clock_sync_exchanges_per_interval *)
  auth : bool;
  tracing : bool }.

(** core/federated/RTI/rti_remote.c:1730-1740, rti_common.c:24 *)
Definition settings0 : settings :=
  mkSettings (lit "Unidentified Federation") 0 0 clock_sync_init 10000000 10 false false.

Definition set_id (v : text) (s : settings) := mkSettings v (federates s) (port s) (clock s) (period s) (exchanges s) (auth s) (tracing s).
Definition set_federates (v : Z) (s : settings) := mkSettings (federation_id s) v (port s) (clock s) (period s) (exchanges s) (auth s) (tracing s).
Definition set_port (v : Z) (s : settings) := mkSettings (federation_id s) (federates s) v (clock s) (period s) (exchanges s) (auth s) (tracing s).
Definition set_clock (v : clock_sync_stat) (s : settings) := mkSettings (federation_id s) (federates s) (port s) v (period s) (exchanges s) (auth s) (tracing s).
Definition set_period (v : Z) (s : settings) := mkSettings (federation_id s) (federates s) (port s) (clock s) v (exchanges s) (auth s) (tracing s).
Definition set_exchanges (v : Z) (s : settings) := mkSettings (federation_id s) (federates s) (port s) (clock s) (period s) v (auth s) (tracing s).
Definition set_auth (v : bool) (s : settings) := mkSettings (federation_id s) (federates s) (port s) (clock s) (period s) (exchanges s) v (tracing s).
Definition set_tracing (v : bool) (s : settings) := mkSettings (federation_id s) (federates s) (port s) (clock s) (period s) (exchanges s) (auth s) v.

(** strtol and strtoll (64 bits each, base 10): the value, or the nearest of
    LONG_MIN and LONG_MAX. *)
Definition strtol (s : text) : Z := Z.max LLONG_MIN (Z.min LLONG_MAX (number s)).
(** strtoul (64 bits): a minus sign negates in the unsigned type; ULONG_MAX if the
    number does not fit. *)
Definition strtoul (s : text) : Z :=
  if Z.abs (number s) <? two64 then number s mod two64 else two64 - 1.

(** The conversions to int32_t (what gcc and clang document), uint32_t, uint16_t
    and uint64_t *)
Definition int32 (z : Z) : Z := (z + 2147483648) mod two32 - 2147483648.
Definition uint32 (z : Z) : Z := z mod two32.
Definition uint16 (z : Z) : Z := z mod 65536.
Definition uint64 (z : Z) : Z := z mod two64.
Definition UINT16_MAX : Z := 65535.

Definition opt (a : text) (names : list string) : bool :=
  existsb (fun n => str_eqb a (lit n)) names.

Definition stat_eqb (a b : clock_sync_stat) : bool :=
  match a, b with
  | clock_sync_off, clock_sync_off => true
  | clock_sync_init, clock_sync_init => true
  | clock_sync_on, clock_sync_on => true
  | _, _ => false
  end.

(** core/federated/RTI/main.c:147-207 [process_clock_sync_args].  The array
    [argv, argc] is the list of the arguments; the model returns, in place of the
    index of the first argument that is not one of clock synchronization (or
    [argc]), the list of the arguments from that index on. *)
Fixpoint process_clock_sync_args (l : list text) (s : settings) {struct l} : settings * list text :=
  match l with
  | [] => (s, [])
  | a :: r =>
    if opt a ["off"%string] then process_clock_sync_args r (set_clock clock_sync_off s)
    else if opt a ["init"; "initial"]%string then process_clock_sync_args r (set_clock clock_sync_init s)
    else if opt a ["on"%string] then process_clock_sync_args r (set_clock clock_sync_on s)
    else if opt a ["period"%string] then
      if negb (stat_eqb (clock s) clock_sync_on) then
        match r with [] => (s, []) | _ :: r => process_clock_sync_args r s end
      else
        match r with
        | [] => process_clock_sync_args r s
        | v :: r =>
          let p := strtol v in
          if (p =? 0) || (p =? LLONG_MAX) || (p =? LLONG_MIN) then process_clock_sync_args r s
          else process_clock_sync_args r (set_period (uint64 p) s)
        end
    else if opt a ["exchanges-per-interval"%string] then
      if negb (stat_eqb (clock s) clock_sync_on) && negb (stat_eqb (clock s) clock_sync_init) then
        process_clock_sync_args r s
      else
        match r with
        | [] => process_clock_sync_args r s
        | v :: r =>
          let x := strtol v in
          if (x =? 0) || (x =? LLONG_MAX) || (x =? LLONG_MIN) then process_clock_sync_args r s
          else process_clock_sync_args r (set_exchanges (int32 x) s)
        end
    else if opt a [" "%string] then process_clock_sync_args r s
    else (s, l)
  end.

(** core/federated/RTI/main.c:209-276 [process_args], from one iteration of its
    loop on: [l] is the list of the arguments from index [i] on.  The result is the
    returned 1 or 0 and the settings, which keep what was set before an error.
    [auth_built]: the program was compiled with __RTI_AUTH__.  After the clock
    synchronization arguments [i] is the index of the argument behind them, which
    the [i++] of the loop then passes over ([tl]).  [fuel]: each iteration
    consumes an argument. *)
Fixpoint process_from (fuel : nat) (auth_built : bool) (l : list text) (s : settings) : bool * settings :=
  match fuel with
  | O => (true, s)
  | S fuel =>
    match l with
    | [] => (true, s)
    | a :: r =>
      if opt a ["-i"; "--id"]%string then
        match r with
        | [] => (false, s)
        | v :: r => process_from fuel auth_built r (set_id v s)
        end
      else if opt a ["-n"; "--number_of_federates"]%string then
        match r with
        | [] => (false, s)
        | v :: r =>
          let n := strtol v in
          if (n <=? 0) || (n =? LLONG_MAX) || (n =? LLONG_MIN) then (false, s)
          else process_from fuel auth_built r (set_federates (int32 n) s)
        end
      else if opt a ["-p"; "--port"]%string then
        match r with
        | [] => (false, s)
        | v :: r =>
          let p := uint32 (strtoul v) in
          if (p <=? 0) || (UINT16_MAX <=? p) then (false, s)
          else process_from fuel auth_built r (set_port (uint16 p) s)
        end
      else if opt a ["-c"; "--clock_sync"]%string then
        match r with
        | [] => (false, s)
        | _ :: _ =>
          let (s, r) := process_clock_sync_args r s in
          process_from fuel auth_built (tl r) s
        end
      else if opt a ["-a"; "--auth"]%string then
        if auth_built then process_from fuel auth_built r (set_auth true s) else (false, s)
      else if opt a ["-t"; "--tracing"]%string then process_from fuel auth_built r (set_tracing true s)
      else if opt a [" "%string] then process_from fuel auth_built r s
      else (false, s)
    end
  end.
(** The loop starts at index 1, behind the name of the program. *)
Definition process_args (auth_built : bool) (argv : list text) (s : settings) : bool * settings :=
  process_from (List.length argv) auth_built (tl argv) s.

(** core/federated/RTI/main.c:102-116 [termination], run by [exit], with the array of
    federates not allocated yet: [rti] is static, so [scheduling_nodes] is a null
    pointer, and [trace_mutex] (trace/impl/src/trace_impl.c:23) is null until
    [lf_tracing_global_init]; [lf_tracing_global_shutdown] (272-275) locks it. *)
Definition termination_unallocated (s : settings) : res unit :=
  if 0 <? federates s then UB
  else if tracing s then UB
  else Ok tt.

(** core/federated/RTI/main.c:297-300: what becomes of the program when it is
    started with a command line. *)
Inductive start := Starts (s : settings) | Exits (code : Z).
Definition main_args (auth_built : bool) (argv : list text) : res start :=
  let (ok, s) := process_args auth_built argv settings0 in
  if ok then Ok (Starts s)
  else do! _ <- termination_unallocated s; Ok (Exits (-1)).

(** core/federated/RTI/main.c:316-325: the records of the federates.  With [ndebug]
    the assertion is not compiled.  [calloc] of a negative number of pointers (a
    huge [size_t]) returns a null pointer; the loop counter is a [uint16_t], so it
    never reaches a number of federates above 65535. *)
Inductive allocation := Aborts | NeverEnds | Allocated (records : Z).
Definition allocate (ndebug : bool) (n : Z) : allocation :=
  if negb ndebug && negb (n <? UINT16_MAX) then Aborts
  else if UINT16_MAX <? n then NeverEnds
  else Allocated (Z.max 0 n).

(** core/federated/RTI/rti_remote.c:1750-1766 [free_scheduling_nodes], whose second
    parameter is a [uint16_t]: reading beyond the records is undefined. *)
Definition free_scheduling_nodes (records n : Z) : res Z :=
  if uint16 n <=? records then Ok (uint16 n) else UB.
