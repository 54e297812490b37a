(** What is expected of printed messages (C95). *)
From Verif Require Import Base CText Logging.
From Coq Require Import String.
Open Scope Z_scope.
Open Scope list_scope.

(** What precedes a message (logging/api/logging.h:31-68). *)
Definition prefix_of (k : kind) : text :=
  match k with
  | Info => [] | Log | MacroLog => lit "LOG: " | Debug | MacroDebug => lit "DEBUG: "
  | Error => lit "ERROR: " | Warning => lit "WARNING: " | Fatal => lit "FATAL ERROR: "
  end.
Definition importance (k : kind) : Z :=
  match k with Error | Fatal => 0 | Warning => 1 | Info => 2 | Log | MacroLog => 3 | Debug | MacroDebug => 4 end.
(** Who prints: [number] is the value of a decimal number (CText.v). *)
Definition identifies (p : process) (t : text) : Prop :=
  match p with
  | Plain => t = []
  | Rti => t = lit "RTI: "
  | Federate id name => exists digits short, number digits = id /\ Forall (fun d => 48 <= d <= 57) digits /\
      (name = lit "federate__" ++ short \/ (name = short /\ ~ exists r, name = lit "federate__" ++ r)) /\
      t = lit "Fed " ++ digits ++ lit " (" ++ short ++ lit "): "
  end.
(** Identities are those of an [int]; names (of reactors) have no percent sign. *)
Definition proper (p : process) : Prop :=
  match p with Federate id name => 0 <= id <= 2147483647 /\ ~ In 37 name | _ => True end.
(** The text that the program asks for: its format with its arguments. *)
Definition asks (c : config) (format : text) (args : list arg) (t : text) : Prop := vprintf (c_conv c) None format args = Ok t.

(** The function registered last. *)
Fixpoint registered (s : option nat * Z) (ops : list op) : option nat * Z :=
  match ops with
  | [] => s
  | Register f l :: ops => registered (f, l) ops
  | Print _ _ _ :: ops => registered s ops
  end.
(** A line of output, on the standard output or by way of a registered function that prints its arguments. *)
Definition writes (c : config) (e : event) (to : option nat) (line : text) : Prop :=
  match to with
  | None => e = Stdout line
  | Some f => exists format args, e = Call f format args /\ asks c format args line
  end.
Definition is_macro (k : kind) : bool := match k with MacroLog | MacroDebug => true | _ => false end.
(** The program goes on. *)
Definition not_fatal (o : op) : Prop := match o with Print Fatal _ _ => False | _ => True end.
