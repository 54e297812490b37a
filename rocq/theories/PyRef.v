(** Model of reference counting in the Python target: python/lib/python_port.c,
    python/lib/python_action.c, python/lib/pythontarget.c and the parts of core/lf_token.c and
    core/reactor_common.c they rely on.

    There is one output port and one action.  Python objects are numbered; None is immortal
    and left out.  [UB]: a reference count of an object that has been freed is changed, an
    uninitialized pointer is used, or memory is freed by the wrong function. *)
From Verif Require Import Base.
From Coq Require Export PeanoNat.
Open Scope nat_scope.

(** Tokens (include/core/lf_token.h).  Values of ports are given to
    [python_count_decrement] in the end (python_port.c:98); actions have no destructor, and
    in the Python target the value is then not freed (lf_token.c:150-160). *)
Record tok := mkTok { t_val : option nat; t_refs : nat; t_dtor : bool }.

(** The field [value] of a port or action object in Python. *)
Inductive cval := CNone | CNull | CUninit | CObj (o : nat).
(** Such an object: its value, its reference count, the references that Python code and the
    code that calls it own, and whether it was created by PyObject_GC_New. *)
Record cap := mkCap { k_val : cval; k_rc : nat; k_own : nat; k_gc : bool }.

Record st := mkSt {
  rc : nat -> nat;            (* reference counts of objects; 0: freed *)
  next : nat;                 (* objects created so far *)
  py : list nat;              (* references owned by Python code *)
  toks : list tok;
  port : option nat;          (* the token of the port *)
  act : option nat;           (* the token of the trigger of the action *)
  astr : option nat;          (* the token of the struct of the action *)
  queue : list (option nat);  (* the tokens of events for the action *)
  caps : list cap }.

Definition set_rc (s : st) o n := mkSt (fun x => if x =? o then n else rc s x) (next s) (py s) (toks s) (port s) (act s) (astr s) (queue s) (caps s).
Definition set_py (s : st) x := mkSt (rc s) (next s) x (toks s) (port s) (act s) (astr s) (queue s) (caps s).
Definition set_toks (s : st) x := mkSt (rc s) (next s) (py s) x (port s) (act s) (astr s) (queue s) (caps s).
Definition set_port (s : st) x := mkSt (rc s) (next s) (py s) (toks s) x (act s) (astr s) (queue s) (caps s).
Definition set_act (s : st) x := mkSt (rc s) (next s) (py s) (toks s) (port s) x (astr s) (queue s) (caps s).
Definition set_astr (s : st) x := mkSt (rc s) (next s) (py s) (toks s) (port s) (act s) x (queue s) (caps s).
Definition set_queue (s : st) x := mkSt (rc s) (next s) (py s) (toks s) (port s) (act s) (astr s) x (caps s).
Definition set_caps (s : st) x := mkSt (rc s) (next s) (py s) (toks s) (port s) (act s) (astr s) (queue s) x.

Fixpoint upd {A} (i : nat) (x : A) (l : list A) : list A :=
  match l, i with
  | [], _ => []
  | _ :: r, 0 => x :: r
  | a :: r, S i => a :: upd i x r
  end.
Fixpoint remove1 (o : nat) (l : list nat) : list nat :=
  match l with [] => [] | a :: r => if a =? o then r else a :: remove1 o r end.
Definition owns (s : st) (o : nat) : bool := existsb (Nat.eqb o) (py s).

(** CPython: Py_INCREF, Py_DECREF *)
Definition incref (s : st) (o : nat) : res st :=
  if rc s o =? 0 then UB else Ok (set_rc s o (S (rc s o))).
Definition decref (s : st) (o : nat) : res st :=
  if rc s o =? 0 then UB else Ok (set_rc s o (rc s o - 1)).

(** lf_token.c:140-163 [_lf_free_token_value] *)
Definition free_value (s : st) (i : nat) (t : tok) : res st :=
  do! s <- match t_val t with Some o => if t_dtor t then decref s o else Ok s | None => Ok s end;
  Ok (set_toks s (upd i (mkTok None (t_refs t) (t_dtor t)) (toks s))).
(** lf_token.c:353-365 [_lf_done_using] with [_lf_free_token]; tokens are not reused here. *)
Definition done_using (s : st) (x : option nat) : res st :=
  match x with
  | None => Ok s
  | Some i =>
      match nth_error (toks s) i with
      | None => Ok s
      | Some t =>
          if t_refs t =? 0 then Ok s
          else
            let t := mkTok (t_val t) (t_refs t - 1) (t_dtor t) in
            if t_refs t =? 0 then free_value s i t else Ok (set_toks s (upd i t (toks s)))
      end
  end.
Definition hold (s : st) (x : option nat) : st :=
  match x with
  | None => s
  | Some i =>
      match nth_error (toks s) i with
      | None => s
      | Some t => set_toks s (upd i (mkTok (t_val t) (S (t_refs t)) (t_dtor t)) (toks s))
      end
  end.
Definition same (x y : option nat) : bool :=
  match x, y with Some i, Some j => i =? j | None, None => true | _, _ => false end.
(** lf_token.c:337-351 [_lf_replace_template_token]: the new state of the tokens. *)
Definition replace (s : st) (old new : option nat) : res st :=
  if same old new then Ok s else do! s <- done_using s old; Ok (hold s new).

Definition token_value (s : st) (x : option nat) : option nat :=
  match x with
  | Some i => match nth_error (toks s) i with Some t => t_val t | None => None end
  | None => None
  end.
Definition obj_or_none (v : option nat) : cval := match v with Some o => CObj o | None => CNone end.

Inductive op :=
| ONew                         (* Python creates an object *)
| ODup (o : nat)               (* Python code makes another reference to an object it has *)
| ODrop (o : nat)              (* Python code drops a reference *)
| OSet (k o : nat)             (* q.set(o) for the port object k *)
| OConvert                     (* a port object is created for a reaction *)
| OItem                        (* m[i], or the next object of an iteration *)
| OSelf (k : nat)              (* p[i] for a port that is not a multiport *)
| ORead (k : nat)              (* q.value *)
| ODupCap (k : nat) | ODropCap (k : nat)   (* references to the port or action object itself *)
| ODelay                       (* an event with the token of the port (a connection with delay) *)
| OForward                     (* the port is set to the token of the action (its other end) *)
| OSched (k : nat) (v : option nat)        (* a.schedule(t, v) for the action object k *)
| OPop                         (* the next event *)
| OExpose                      (* generated code sets the token of the struct of the action *)
| OConvertAct.                 (* an action object is created for a reaction *)

Definition add_cap (s : st) (k : cap) : st := set_caps s (caps s ++ [k]).
Definition set_val (s : st) (k : nat) (v : cval) : st :=
  match nth_error (caps s) k with
  | Some c => set_caps s (upd k (mkCap v (k_rc c) (k_own c) (k_gc c)) (caps s))
  | None => s
  end.

(** [Py_XDECREF(self->value)], python_port.c:122 and python_action.c:48 *)
Definition drop_value (s : st) (v : cval) : res st :=
  match v with CObj o => decref s o | CUninit => UB | CNone | CNull => Ok s end.
(** python_port.c:120-124, python_action.c:46-50: the types lack Py_TPFLAGS_HAVE_GC, so that
    tp_free must not be applied to what PyObject_GC_New has returned. *)
Definition dealloc (s : st) (c : cap) : res st :=
  do! s <- drop_value s (k_val c);
  if k_gc c then UB else Ok s.

(** python_port.c:81-113 [py_port_set]: the new token replaces the one of the port, there is
    one more reference to the value, which is also the value of the port object.  The old
    token is released before the new one is made; lf_set_token does so after. *)
Definition port_set (s : st) (k o : nat) : res st :=
  do! s <- done_using s (port s);
  let s := set_toks s (toks s ++ [mkTok (Some o) 1 true]) in
  let s := set_port s (Some (length (toks s) - 1)) in
  do! s <- incref s o;
  Ok (set_val s k (CObj o)).

(** lf_token.c:234-249 [_lf_get_token], 277-291 [_lf_initialize_token_with_value] *)
Definition action_token (s : st) (i : nat) (o : nat) : res (st * nat) :=
  match nth_error (toks s) i with
  | Some t =>
      if t_refs t =? 1 then
        do! s <- free_value s i t;
        Ok (set_toks s (upd i (mkTok (Some o) 1 (t_dtor t)) (toks s)), i)
      else Ok (set_toks s (toks s ++ [mkTok (Some o) 1 false]), length (toks s))
  | None => UB
  end.
(** pythontarget.c:77-113 [py_schedule], lib/schedule.c:130-133 (the event holds the token).
    Events are handled in the order in which they are scheduled. *)
Definition py_schedule (s : st) (k : nat) (v : option nat) : res st :=
  do! x <- match v, act s with
           | Some o, Some i =>
               do! y <- action_token s i o;
               do! s <- incref (fst y) o;
               Ok (set_val s k (CObj o), Some (snd y))
           | _, _ => Ok (s, None)
           end;
  let (s, t) := x in
  Ok (set_queue (hold s t) (queue s ++ [t])).

(** pythontarget.c:510-550 [convert_C_action_to_py].  A value NULL of the trigger's token is
    replaced by None; both are [None] in [t_val]. *)
Definition action_value (s : st) : cval :=
  match act s with
  | None => CNone
  | Some i =>
      match astr s with
      | None => CUninit
      | Some j => match token_value s (Some j) with Some o => CObj o | None => if i =? j then CNone else CNull end
      end
  end.

(** What is not possible leaves the state as it is. *)
Definition step (s : st) (x : op) : res st :=
  match x with
  | ONew => Ok (mkSt (fun o => if o =? next s then 1 else rc s o) (S (next s)) (next s :: py s) (toks s) (port s) (act s) (astr s) (queue s) (caps s))
  | ODup o => if owns s o then do! s <- incref s o; Ok (set_py s (o :: py s)) else Ok s
  | ODrop o => if owns s o then do! s <- decref s o; Ok (set_py s (remove1 o (py s))) else Ok s
  | OSet k o => if owns s o then port_set s k o else Ok s
  | OConvert => Ok (add_cap s (mkCap (obj_or_none (token_value s (port s))) 1 1 true))      (* pythontarget.c:446-486 *)
  | OItem => Ok (add_cap s (mkCap (obj_or_none (token_value s (port s))) 2 1 false))        (* python_port.c:199-217, 246-278 *)
  | OSelf k =>                                                                              (* python_port.c:237-239 *)
      match nth_error (caps s) k with
      | Some c => if k_own c =? 0 then Ok s else Ok (set_caps s (upd k (mkCap (k_val c) (k_rc c) (S (k_own c)) (k_gc c)) (caps s)))
      | None => Ok s
      end
  | ORead k =>                                                                              (* T_OBJECT, python_action.c:117 *)
      match nth_error (caps s) k with
      | Some c =>
          if k_own c =? 0 then Ok s
          else if k_rc c =? 0 then UB
          else match k_val c with
               | CObj o => do! s <- incref s o; Ok (set_py s (o :: py s))
               | CUninit => UB
               | CNone | CNull => Ok s
               end
      | None => Ok s
      end
  | ODupCap k =>
      match nth_error (caps s) k with
      | Some c =>
          if k_own c =? 0 then Ok s
          else if k_rc c =? 0 then UB
          else Ok (set_caps s (upd k (mkCap (k_val c) (S (k_rc c)) (S (k_own c)) (k_gc c)) (caps s)))
      | None => Ok s
      end
  | ODropCap k =>
      match nth_error (caps s) k with
      | Some c =>
          if k_own c =? 0 then Ok s
          else if k_rc c =? 0 then UB
          else
            let c := mkCap (k_val c) (k_rc c - 1) (k_own c - 1) (k_gc c) in
            let s := set_caps s (upd k c (caps s)) in
            if k_rc c =? 0 then dealloc s c else Ok s
      | None => Ok s
      end
  | ODelay => Ok (set_queue (hold s (port s)) (queue s ++ [port s]))
  | OForward =>                                                                             (* reaction_macros.h:128-134 *)
      match act s with
      | Some i => do! s' <- replace s (port s) (Some i); Ok (set_port s' (Some i))
      | None => Ok s
      end
  | OSched k v => if match v with Some o => owns s o | None => true end then py_schedule s k v else Ok s
  | OPop =>                                                                                 (* reactor_common.c:324-330 *)
      match queue s with
      | [] => Ok s
      | t :: q =>
          do! s' <- replace s (act s) t;
          do! s' <- done_using s' t;
          Ok (set_queue (set_act s' t) q)
      end
  | OExpose => do! s' <- replace s (astr s) (act s); Ok (set_astr s' (act s))
  | OConvertAct => Ok (add_cap s (mkCap (action_value s) 1 1 true))
  end.

(** At the start the trigger has a token without a value (lf_token.c:251-275). *)
Definition init : st := mkSt (fun _ => 0) 0 [] [mkTok None 1 false] None (Some 0) None [] [].
Fixpoint run (s : st) (l : list op) : res st :=
  match l with [] => Ok s | x :: l => do! s <- step s x; run s l end.
