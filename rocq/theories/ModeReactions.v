(** Model of the reactions of modal reactors to startup, reset and shutdown:
    core/modal_models/modes.c:223-319 and core/reactor_common.c:421-455.

    The modes themselves and their events are those of Modes.v.  Reactions have numbers.
    Left out: entries NULL of the arrays of reactions, and the other triggers of a reaction. *)
From Verif Require Import Base Tag Modes.

(** The program: generated and never changed. *)
Record reactions := mkReactions {
  startups : list nat;              (* env->startup_reactions *)
  resets : list nat;                (* env->reset_reactions *)
  shutdowns : list nat;             (* env->shutdown_reactions *)
  rmode : nat -> option mode }.     (* reaction_t.mode, before line 309 *)

Record mstate := mkM {
  base : Modes.state;
  released : list nat;              (* the reactions with mode = NULL because of line 309 *)
  queued : list nat }.              (* the reactions triggered at the current tag (status is not inactive) *)

Section Model.
Variable p : program.
Variable x : reactions.

Definition memb (r : nat) (l : list nat) : bool := existsb (Nat.eqb r) l.
(** reaction->mode *)
Definition mode_of (s : mstate) (r : nat) : option mode := if memb r (released s) then None else rmode x r.
(** [_lf_trigger_reaction], core/reactor.c:101-121, core/threaded/reactor_threaded.c:532-546:
    a reaction that has been triggered already is not put on the queue again. *)
Definition trigger (s : mstate) (r : nat) : mstate :=
  if is_active (base s) (mode_of s r) then
    if memb r (queued s) then s else mkM (base s) (released s) (queued s ++ [r])
  else s.

(** Lines 231-241 and 249-259: one iteration of the loops; [need] is the flag of the mode. *)
Definition trigger_one (need : mflags -> bool) (s : mstate) (r : nat) : mstate :=
  match mode_of s r with
  | None => s
  | Some m => if negb (memb r (queued s)) && is_active (base s) (Some m) && need (flags (base s) m) then trigger s r else s
  end.
(** [_lf_handle_mode_startup_reset_reactions], lines 223-283 *)
Definition startup_reset (rs : list nat) (s : mstate) : mstate :=
  let s := if req_startup (base s) then fold_left (trigger_one needs_startup) (startups x) s else s in
  let s := if req_reset (base s) then fold_left (trigger_one needs_reset) rs s else s in
  mkM (handled p (base s)) (released s) (queued s).

(** reactor_common.c:423-430, 439-446: one iteration of the loops *)
Definition plain (s : mstate) (r : nat) : mstate := match mode_of s r with Some _ => s | None => trigger s r end.
(** [_lf_trigger_startup_reactions], reactor_common.c:421-436 *)
Definition trigger_startup (s : mstate) : mstate := startup_reset [] (fold_left plain (startups x) s).
(** Lines 300-316: one iteration of the loop *)
Definition release_one (s : mstate) (r : nat) : mstate :=
  match mode_of s r with
  | None => s
  | Some m =>
      if had_startup (flags (base s) m) then
        let s := mkM (base s) (r :: released s) (queued s) in
        if memb r (queued s) then s else trigger s r
      else s
  end.
(** [_lf_trigger_shutdown_reactions], reactor_common.c:438-452, and
    [_lf_handle_mode_shutdown_reactions], lines 297-319 *)
Definition trigger_shutdown (s : mstate) : mstate := fold_left release_one (shutdowns x) (fold_left plain (shutdowns x) s).

Definition at_stop (s : mstate) : bool := 0 <=? tag_compare (now (base s)) (stop (base s)).

Inductive mop := Do (o : op) | Stop (t : tag).
(** [Advance]: [_lf_do_step] after the last reaction and [next], core/reactor.c:192-281;
    core/threaded/reactor_threaded.c:310-452.  The tag after the current one is not after
    the stop tag; when the stop tag is over there is no other one.
    [Stop]: [lf_set_stop_tag], reactor_common.c:145-150. *)
Definition mstep (s : mstate) (o : mop) : option (mstate * list event) :=
  match o with
  | Do (Advance t) =>
      if at_stop s || (0 <? tag_compare t (stop (base s))) then None
      else
        let (b, e) := process p (base s) in
        if (tag_compare (now b) t <? 0) && forallb (fun e => tag_compare t (etag e) <=? 0) (q b) then
          let s := mkM (mkState (cur b) (next b) (chg b) (flags b) (deact b) (filter (fun e => negb (tag_compare (etag e) t =? 0)) (q b)) (susp b)
                                (req_startup b) (req_reset b) t (stop b) (start b) (fresh b)) (released s) [] in
          let s := if at_stop s then trigger_shutdown s else s in
          Some (startup_reset (resets x) s, e)
        else None
  | Do o => match step p (base s) o with Some (b, e) => Some (mkM b (released s) (queued s), e) | None => None end
  | Stop t =>
      let b := base s in
      if tag_compare t (stop b) <? 0 then
        Some (mkM (mkState (cur b) (next b) (chg b) (flags b) (deact b) (q b) (susp b) (req_startup b) (req_reset b) (now b) t (start b) (fresh b)) (released s) (queued s), [])
      else Some (s, [])
  end.

(** The start, core/reactor.c:337-355, core/threaded/reactor_threaded.c:557-650, 1065-1068 *)
Definition blank (t0 : Z) (stop : tag) : Modes.state :=
  mkState (initial p) (fun _ => None) (fun _ => NoTransition) (fun _ => mkFlags false false false false) (fun _ => 0) [] [] true false (mkTag t0 0) stop t0 0.
Definition minit (t0 : Z) (stop : tag) : mstate :=
  let s := trigger_startup (mkM (fold_left (enable p) (reactors p) (blank t0 stop)) [] []) in
  let s := mkM (fst (each (init_timer p) (timers p) (base s))) (released s) (queued s) in
  if at_stop s then trigger_shutdown s else s.
End Model.
