(** What the converted trace is supposed to be: JSON text (RFC 8259), with the spans of the trace. *)
From Coq Require Import String.
From Verif Require Import Base CText Net TraceFile TraceCsv Chrome.
Open Scope Z_scope.
Local Open Scope list_scope.

(** * A recognizer for JSON, character by character.  Bytes above 127 are taken for parts of characters in UTF-8. *)
Inductive frame := Arr | Obj.
Inductive mode :=
| Val | ValOrEnd                        (* a value; the same or the end of an empty array *)
| KeyOrEnd | Key | Colon                (* in an object *)
| After                                 (* behind a value *)
| Str (k : bool) | Esc (k : bool) | Hex (k : bool) (n : nat)   (* in a string, which is a key or a value *)
| Minus | Zero | Int | Point | Frac | Exp | ExpSign | ExpDigits (* in a number *)
| Word (rest : text).                   (* in true, false, null *)

Definition blank (c : Z) : bool := (c =? 32) || (c =? 9) || (c =? 10) || (c =? 13).
Definition digit (c : Z) : bool := (48 <=? c) && (c <=? 57).
Definition hex (c : Z) : bool := digit c || ((65 <=? c) && (c <=? 70)) || ((97 <=? c) && (c <=? 102)).
Definition closed (k : bool) : mode := if k then Colon else After.

Definition value (st : list frame) (c : Z) : option (mode * list frame) :=
  if c =? 34 then Some (Str false, st)
  else if c =? 123 then Some (KeyOrEnd, Obj :: st)
  else if c =? 91 then Some (ValOrEnd, Arr :: st)
  else if c =? 45 then Some (Minus, st)
  else if c =? 48 then Some (Zero, st)
  else if digit c then Some (Int, st)
  else if c =? 116 then Some (Word (lit "rue"), st)
  else if c =? 102 then Some (Word (lit "alse"), st)
  else if c =? 110 then Some (Word (lit "ull"), st)
  else None.
Definition after (st : list frame) (c : Z) : option (mode * list frame) :=
  if blank c then Some (After, st)
  else match st with
       | Arr :: up => if c =? 44 then Some (Val, st) else if c =? 93 then Some (After, up) else None
       | Obj :: up => if c =? 44 then Some (Key, st) else if c =? 125 then Some (After, up) else None
       | [] => None
       end.
Definition fraction (m : mode) (st : list frame) (c : Z) : option (mode * list frame) :=
  if (c =? 101) || (c =? 69) then Some (Exp, st) else after st c.
Definition jstep (m : mode) (st : list frame) (c : Z) : option (mode * list frame) :=
  match m with
  | Val => if blank c then Some (Val, st) else value st c
  | ValOrEnd => if blank c then Some (ValOrEnd, st)
                else match st with Arr :: up => if c =? 93 then Some (After, up) else value st c | _ => None end
  | KeyOrEnd => if blank c then Some (KeyOrEnd, st) else if c =? 34 then Some (Str true, st)
                else match st with Obj :: up => if c =? 125 then Some (After, up) else None | _ => None end
  | Key => if blank c then Some (Key, st) else if c =? 34 then Some (Str true, st) else None
  | Colon => if blank c then Some (Colon, st) else if c =? 58 then Some (Val, st) else None
  | After => after st c
  | Str k => if c =? 34 then Some (closed k, st) else if c =? 92 then Some (Esc k, st) else if c <? 32 then None else Some (Str k, st)
  | Esc k => if existsb (Z.eqb c) [34; 92; 47; 98; 102; 110; 114; 116] then Some (Str k, st)
             else if c =? 117 then Some (Hex k 3, st) else None
  | Hex k n => if hex c then Some (match n with O => Str k | S n => Hex k n end, st) else None
  | Minus => if c =? 48 then Some (Zero, st) else if digit c then Some (Int, st) else None
  | Zero => if c =? 46 then Some (Point, st) else fraction m st c
  | Int => if digit c then Some (Int, st) else if c =? 46 then Some (Point, st) else fraction m st c
  | Point => if digit c then Some (Frac, st) else None
  | Frac => if digit c then Some (Frac, st) else fraction m st c
  | Exp => if (c =? 43) || (c =? 45) then Some (ExpSign, st) else if digit c then Some (ExpDigits, st) else None
  | ExpSign => if digit c then Some (ExpDigits, st) else None
  | ExpDigits => if digit c then Some (ExpDigits, st) else after st c
  | Word [] => None
  | Word (x :: r) => if c =? x then Some (match r with [] => After | _ => Word r end, st) else None
  end.
Fixpoint jrun (m : mode) (st : list frame) (t : text) : option (mode * list frame) :=
  match t with
  | [] => Some (m, st)
  | c :: t => match jstep m st c with Some (m, st) => jrun m st t | None => None end
  end.
Definition is_json (t : text) : bool :=
  match jrun Val [] t with
  | Some (After, []) | Some (Zero, []) | Some (Int, []) | Some (Frac, []) | Some (ExpDigits, []) => true
  | _ => false
  end.

(** * Inputs *)
(** A name that may stand in a JSON string as it is. *)
Definition plain_char (c : Z) : Prop := 32 <= c /\ c <> 34 /\ c <> 92.
Definition plain (t : text) : Prop := Forall plain_char t.
Definition names_plain (table : list object) : Prop := Forall (fun o => plain (o_description o)) table.
(** The fields of an entry have their types. *)
Definition typed (e : entry) : Prop :=
  fits32 (event_type e) = true /\ fits32 (src_id e) = true /\ fits32 (dst_id e) = true /\ fits64 (logical_time e) = true
  /\ fits64 (physical_time e) = true /\ fits64 (extra_delay e) = true /\ 0 <= microstep e < 2 ^ 32.
(** An entry of a sound trace: a known event, no time before the start, and reaction numbers with room for 1024 more. *)
Definition sound (start : Z) (e : entry) : Prop :=
  typed e /\ 0 <= event_type e /\ start <= logical_time e /\ start <= physical_time e /\
  physical_time e - start < 2 ^ 63 /\ logical_time e - start < 2 ^ 63 /\ dst_id e < 2 ^ 31 - 1024.

(** * Spans *)
(** What a worker did, with times in microseconds since the start: true for a beginning. *)
Definition entry_span (start w : Z) (e : entry) : list (bool * Z) :=
  if src_id e =? w then
    if (event_type e =? 0) || (event_type e =? 6) || (event_type e =? 8) then [(true, (physical_time e - start) / 1000)]
    else if (event_type e =? 1) || (event_type e =? 7) || (event_type e =? 9) then [(false, (physical_time e - start) / 1000)]
    else []
  else [].
(** What the viewer draws on the line of worker [w] of the process "Execution". *)
Definition event_span (w : Z) (j : event) : list (bool * Z) :=
  if (j_pid j =? 0) && (j_tid j =? w) then
    if str_eqb (j_ph j) (lit "B") then [(true, j_ts j)]
    else if str_eqb (j_ph j) (lit "E") then [(false, j_ts j)] else []
  else [].
(** A process or thread has a name in the viewer. *)
Definition named (ms : list meta) (pid : Z) (tid : option Z) : Prop := exists m, In m ms /\ m_pid m = pid /\ m_tid m = tid.
(** The names registered for a reactor and for a trigger. *)
Definition reactor_label (table : list object) (p : Z) : option text :=
  option_map o_description (find (fun o => o_pointer o =? p) table).
Definition trigger_label (table : list object) (p : Z) : option text :=
  option_map o_description (find (fun o => (o_trigger o =? p) && (o_type o =? 1)) table).
(** A beginning or an end that is drawn on a line. *)
Definition bound (j : event) : bool := str_eqb (j_ph j) (lit "B") || str_eqb (j_ph j) (lit "E").
