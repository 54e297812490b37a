(** The messages that programs and the runtime print (C95).

    Modelled: core/utils/util.c:61-219 [_lf_message_print], [lf_print] and its relatives, [lf_print_error_and_exit],
    [lf_print_error_system_failure], [lf_register_print_function]; the macros LF_PRINT_LOG and LF_PRINT_DEBUG of
    logging/api/logging_macros.h:12-67.  Characters are numbers, as in CText.v.  The conversions of the C library
    ([vfprintf]) are a parameter.  Simplified: [malloc] succeeds. *)
From Verif Require Import Base CText.
From Coq Require Import String.
Open Scope Z_scope.
Open Scope list_scope.

(** logging/api/logging.h:24-28. *)
Definition LEVEL_ERROR : Z := 0.
Definition LEVEL_WARNING : Z := 1.
Definition LEVEL_INFO : Z := 2.
Definition LEVEL_LOG : Z := 3.
Definition LEVEL_DEBUG : Z := 4.

(** ** The C library *)
Inductive arg := AInt (z : Z) | AStr (t : text).
Definition percent : Z := 37.
Definition newline : Z := 10.
(** Flags, widths, precisions and length modifiers of a conversion: digits, space, [#+-.] and the letters [hjlLtz]. *)
Definition modifier (c : Z) : bool :=
  is_digit c || existsb (Z.eqb c) [32; 35; 43; 45; 46; 104; 106; 108; 76; 116; 122].
(** [vfprintf]: text is copied; [%%] is a percent sign; a conversion takes the next argument.  A conversion that does not
    exist, does not fit the argument or has none is undefined.  [conv]: what the library writes for a conversion. *)
Fixpoint vprintf (conv : text -> arg -> option text) (spec : option text) (f : text) (args : list arg) : res text :=
  match f with
  | [] => match spec with None => Ok [] | Some _ => UB end
  | c :: f =>
    match spec with
    | None =>
      if c =? percent then vprintf conv (Some []) f args
      else (do! r <- vprintf conv None f args; Ok (c :: r))
    | Some acc =>
      if modifier c then vprintf conv (Some (acc ++ [c])) f args
      else if c =? percent then
        match acc with
        | [] => do! r <- vprintf conv None f args; Ok (percent :: r)
        | _ => UB
        end
      else
        match args with
        | [] => UB
        | a :: args =>
          match conv (acc ++ [c]) a with
          | Some t => do! r <- vprintf conv None f args; Ok (t ++ r)
          | None => UB
          end
        end
    end
  end.
(** The decimal digits of an [int] that is not negative ([%d]). *)
Fixpoint dec (fuel : nat) (v : Z) : text :=
  match fuel with
  | O => []
  | S fuel => if v <? 10 then [48 + v] else dec fuel (v / 10) ++ [48 + v mod 10]
  end.
(** [snprintf(message, n, ...)] keeps the first [n - 1] characters. *)
Definition snprintf (n : nat) (t : text) : text := firstn (n - 1) t.

(** ** The program *)
(** [_lf_my_fed_id] is negative; the RTI (STANDALONE_RTI); a federate with its identity and the name of its environment. *)
Inductive process := Plain | Rti | Federate (id : Z) (name : text).
Record config := mkConfig {
  c_level : Z;                              (* LOG_LEVEL; logging_macros.h:13-15 gives it a value if the program does not *)
  c_process : process;
  c_conv : text -> arg -> option text }.
(** util.c:67, 70. *)
Record state := mkState { fn : option nat; fn_level : Z }.
Definition init : state := mkState None (-1).

Inductive event :=
| Stdout (t : text)                         (* one call of [vfprintf] *)
| Call (f : nat) (format : text) (args : list arg)   (* one call of the registered function *)
| Exit (code : Z).

(** Lines 115-137: the text of the message, before its arguments are converted. *)
Definition compose (p : process) (prefix format : text) : text :=
  match p with
  | Plain => snprintf (List.length prefix + List.length format + 32) (prefix ++ format ++ [newline])
  | Rti => snprintf (List.length prefix + List.length format + 37) (lit "RTI: " ++ prefix ++ format ++ [newline])
  | Federate id name =>
    let n := (List.length prefix + List.length format + List.length name + 32)%nat in
    let name := if strn_eqb 10 name (lit "federate__") then skipn 10 name else name in
    snprintf n (lit "Fed " ++ dec 10 id ++ lit " (" ++ name ++ lit "): " ++ prefix ++ format ++ [newline])
  end.

(** Lines 90-146 [_lf_message_print].  The two variables are read four times, at lines 101, 102, 138 and 142, without any lock:
    [s1] to [s4] are their values then.  [reads_same s] is a program in which no other thread registers meanwhile. *)
Record reads := mkReads { s1 : state; s2 : state; s3 : state; s4 : state }.
Definition reads_same (s : state) : reads := mkReads s s s s.
Definition message_print (c : config) (r : reads) (prefix format : text) (args : list arg) (log_level : Z) : res (list event) :=
  let print_level := if c_level c <? fn_level (s1 r) then fn_level (s2 r) else c_level c in
  let print_level := if print_level <? 0 then LEVEL_INFO else print_level in
  if log_level <=? print_level then
    let message := compose (c_process c) prefix format in
    match fn (s3 r) with
    | None => do! t <- vprintf (c_conv c) None message args; Ok [Stdout t]
    | Some _ =>
      match fn (s4 r) with
      | Some f => Ok [Call f message args]
      | None => UB                            (* a call of NULL *)
      end
    end
  else Ok [].

(** Lines 80-85, 148-213 and the macros. *)
Inductive kind := Info | Log | Debug | Error | Warning | Fatal | MacroLog | MacroDebug.
Definition print (c : config) (r : reads) (k : kind) (format : text) (args : list arg) : res (list event) :=
  let out := message_print c r in
  match k with
  | Info => out [] format args LEVEL_INFO
  | Log => out (lit "LOG: ") format args LEVEL_LOG
  | Debug => out (lit "DEBUG: ") format args LEVEL_DEBUG
  | Error => out (lit "ERROR: ") format args LEVEL_ERROR
  | Warning => out (lit "WARNING: ") format args LEVEL_WARNING
  | Fatal => do! l <- out (lit "FATAL ERROR: ") format args LEVEL_ERROR; Ok (l ++ [Exit 1])
  | MacroLog => if LEVEL_LOG <=? c_level c then out (lit "LOG: ") format args LEVEL_LOG else Ok []
  | MacroDebug => if LEVEL_DEBUG <=? c_level c then out (lit "DEBUG: ") format args LEVEL_DEBUG else Ok []
  end.
(** Lines 204-213 [lf_print_error_system_failure].  [errno] is read after the first message has been printed, and printing may
    change it (C17 7.5 (3)): [errno_after].  [strerror]: the texts of the system. *)
Definition system_failure (c : config) (r : reads) (strerror : Z -> text) (errno errno_after : Z) (format : text) (args : list arg)
  : res (list event) :=
  do! l <- print c r Error format args;
  do! m <- print c r Fatal (lit "Error %d: %s") [AInt errno_after; AStr (strerror errno_after)];
  Ok (l ++ m).

Inductive op :=
| Register (f : option nat) (level : Z)     (* lines 215-218 *)
| Print (k : kind) (format : text) (args : list arg).
Fixpoint run (c : config) (s : state) (ops : list op) : res (list event) :=
  match ops with
  | [] => Ok []
  | Register f l :: ops => run c (mkState f l) ops
  | Print k format args :: ops =>
    do! e <- print c (reads_same s) k format args;
    match k with
    | Fatal => Ok e
    | _ => do! r <- run c s ops; Ok (e ++ r)
    end
  end.
