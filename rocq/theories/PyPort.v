(** Model of what Python reactions see of ports and tags: python/lib/python_port.c,
    python/lib/python_tag.c and, from python/lib/pythontarget.c, the conversion of ports,
    of the command line and the lookup of reactions.  Reference counts are in PyRef.v.

    A call from Python yields a value or raises an exception; [UB] stands for undefined
    behaviour of the C code.  Type [long] has 64 bits unless said otherwise. *)
From Verif Require Import Base Tag.
Open Scope Z_scope.

Inductive exc := TypeError | OverflowError | SystemError.
Inductive outcome (A : Type) := Val (a : A) | Raise (e : exc).
Arguments Val {A}. Arguments Raise {A}.

(** Python's None, and other objects. *)
Inductive pyval := VNone | VObj (n : nat).
(** A C port: python/include/python_port.h:58-69.  [value] is NULL until the port is set. *)
Record cport := mkCport { cp_value : option pyval; cp_present : bool }.
(** A port as a Python object, python/include/python_port.h:92-99.  [c_chan] is the channel that [port]
    points to, [c_index] is [None] as long as it has not been initialized. *)
Record capsule := mkCap { c_chan : nat; c_value : pyval; c_present : bool; c_width : Z; c_index : option Z }.

Definition none_if_null (v : option pyval) : pyval := match v with Some v => v | None => VNone end.

(** pythontarget.c:446-486 [convert_C_port_to_py]; the object is not initialized otherwise
    ([PyObject_GC_New]).  The width is -2 for ports that are not multiports. *)
Definition convert (ports : list cport) (width : Z) : option capsule :=
  if width =? -2 then
    match ports with
    | p :: _ => Some (mkCap 0 (none_if_null (cp_value p)) (cp_present p) width None)
    | [] => None
    end
  else Some (mkCap 0 VNone false width None).

(** The port object for a channel, python_port.c:185-217 and 244-278. *)
Definition channel (i : nat) (p : cport) : capsule := mkCap i (none_if_null (cp_value p)) (cp_present p) (-2) (Some 0).

Inductive key := KInt (z : Z) | KOther.

(** python_port.c:233-279 [py_port_capsule_get_item]: p[key].  PyLong_AsLong yields -1 if
    the number does not fit in a [long]. *)
Definition get_item (ports : list cport) (c : capsule) (k : key) : res (outcome capsule) :=
  if c_width c =? -2 then Ok (Val c)
  else match k with
       | KOther => Ok (Raise TypeError)
       | KInt z =>
           let index := if (LLONG_MIN <=? z) && (z <=? LLONG_MAX) then z else -1 in
           if index =? -3 then Ok (Raise TypeError)
           else if index <? 0 then UB
           else match nth_error ports (Z.to_nat index) with
                | Some p => Ok (Val (channel (Z.to_nat index) p))
                | None => UB
                end
       end.

(** python_port.c:169-174 [py_port_iter] *)
Definition iter (c : capsule) : capsule := mkCap (c_chan c) (c_value c) (c_present c) (c_width c) (Some 0).
Definition at_index (c : capsule) (i : Z) : capsule := mkCap (c_chan c) (c_value c) (c_present c) (c_width c) (Some i).

(** python_port.c:183-218 [py_port_iter_next]; [None] ends the iteration. *)
Definition iter_next (ports : list cport) (c : capsule) : res (outcome (option capsule * capsule)) :=
  if c_width c <? 1 then Ok (Raise TypeError)
  else match c_index c with
       | None => UB
       | Some i =>
           if c_width c <=? i then Ok (Val (None, at_index c 0))
           else if i <? 0 then UB
           else match nth_error ports (Z.to_nat i) with
                | Some p => Ok (Val (Some (channel (Z.to_nat i) p), at_index c (i + 1)))
                | None => UB
                end
       end.

(** Python's for loop, at most [n] rounds; the body may use the object that is iterated
    over.  [None]: the body does not end. *)
Inductive run := Ended (l : list capsule) (c : capsule) | Raised (e : exc) | Running.
Fixpoint loop (n : nat) (ports : list cport) (body : capsule -> option capsule) (c : capsule) : res run :=
  match n with
  | O => Ok Running
  | S n =>
      do! x <- iter_next ports c;
      match x with
      | Raise e => Ok (Raised e)
      | Val (None, c) => Ok (Ended [] c)
      | Val (Some q, c) =>
          match body c with
          | None => Ok Running
          | Some c =>
              do! r <- loop n ports body c;
              Ok (match r with Ended l c => Ended (q :: l) c | r => r end)
          end
      end
  end.
Definition for_each (n : nat) (ports : list cport) (body : capsule -> option capsule) (c : capsule) : res run :=
  loop n ports body (iter c).

(** python_port.c:297-301 [py_port_length] and CPython's check of its result *)
Definition len (c : capsule) : outcome Z := if c_width c <? 0 then Raise SystemError else Val (c_width c).

(** ** Setting ports *)
Fixpoint set_nth (i : nat) (x : cport) (l : list cport) : list cport :=
  match l, i with
  | [], _ => []
  | _ :: r, O => x :: r
  | a :: r, S i => a :: set_nth i x r
  end.
(** python_port.c:81-113 [py_port_set] with [lf_set_token] (reaction_macros.h:128-134): q.set(v).
    The object of a multiport refers to an array of pointers, which is taken for a port. *)
Definition port_set (ports : list cport) (c : capsule) (v : pyval) : res (list cport * capsule) :=
  if c_width c =? -2 then
    if (c_chan c <? length ports)%nat
    then Ok (set_nth (c_chan c) (mkCport (Some v) true) ports, mkCap (c_chan c) v true (c_width c) (c_index c))
    else UB
  else UB.
(** What happens to a port with [w] channels (a single port has one): a channel is set through
    some object for it, or the tag ends, which resets is_present only
    (reactor_common.c:176-185). *)
Inductive pop := PSet (i : nat) (v : pyval) | PEndTag.
Definition pstep (ports : list cport) (o : pop) : list cport :=
  match o with
  | PSet i v => set_nth i (mkCport (Some v) true) ports
  | PEndTag => map (fun p => mkCport (cp_value p) false) ports
  end.
Definition fresh_ports (w : nat) : list cport := repeat (mkCport None false) w.
Definition prun (w : nat) (l : list pop) : list cport := fold_left pstep l (fresh_ports w).

(** ** Tags *)
(** python_tag.c:83-89 [Tag_init]: "L" checks the range of the time, "k" does not check that
    of the microstep and writes an unsigned long, whose size is [long] bytes, to where a
    field of 4 bytes is.  If it has 8, the other half goes to the padding of the struct. *)
Definition tag_init (long : Z) (big_endian : bool) (time microstep : Z) : outcome tag :=
  if (LLONG_MIN <=? time) && (time <=? LLONG_MAX) then
    let k := microstep mod 2 ^ (8 * long) in
    Val (mkTag time (if long =? 4 then k else if big_endian then k / 2 ^ 32 else k mod 2 ^ 32))
  else Raise OverflowError.
(** python_tag.c:60-73 [py_tag_compare] *)
Definition py_tag_compare (a b : tag) : Z := tag_compare a b.
(** python_tag.c:98-127 [Tag_richcompare] *)
Inductive cmp := LT | LE | EQ | NE | GT | GE.
Definition richcompare (o : cmp) (a b : tag) : bool :=
  match o with
  | LT => tag_compare a b <? 0
  | LE => tag_compare a b <=? 0
  | EQ => tag_compare a b =? 0
  | NE => negb (tag_compare a b =? 0)
  | GT => 0 <? tag_compare a b
  | GE => 0 <=? tag_compare a b
  end.

(** ** The command line *)
(** pythontarget.c:199-250 [_lf_py_parse_argv_impl], 279-310 [py_main]: the argument count
    and the arguments for the runtime.  A string that cannot be encoded is [None]. *)
Inductive pyarg := AList (l : list (option (list Z))) | ANotList.
Inductive main_args := Args (argc : Z) (argv : list (list Z)) | Exit.
Fixpoint encode (l : list (option (list Z))) : option (list (list Z)) :=
  match l with
  | [] => Some []
  | Some s :: r => match encode r with Some t => Some (s :: t) | None => None end
  | None :: _ => None
  end.
Definition main_argv (module : list Z) (args : list pyarg) : res main_args :=
  match args with
  | [] => Ok (Args 1 [module])
  | [AList l] => match encode l with Some s => Ok (Args (Z.of_nat (length s)) s) | None => Ok Exit end
  | [ANotList] => Ok (Args (-1) [])   (* PyList_Size returns -1; argc is an int in the end *)
  | _ => UB                           (* argc is not initialized *)
  end.

(** ** Reactions *)
(** pythontarget.c:570-694 [get_python_function].  The module is a map from names of lists of
    instances; an instance maps names of attributes to whether they are callable. *)
Inductive found := Function | Null | PyNone.
Definition get_function (module : option (nat -> option (list (nat -> option bool)))) (class instance func : nat) : found :=
  match module with
  | None => PyNone
  | Some m =>
      match m class with
      | None => Null
      | Some l =>
          match nth_error l instance with
          | None => Null
          | Some o => match o func with Some true => Function | _ => PyNone end
          end
      end
  end.
