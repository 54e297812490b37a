(** What happens to the values of scheduled events: the calls of lib/schedule.c that take a value, what
    reactions do with tokens (Token.v), messages (core/reactor_common.c:482-560) and the main loop of
    Runtime.v, on one state.  Every call is atomic (it holds the environment's mutex).  [nd] is NDEBUG, [kp] keepalive. *)
From Verif Require Import Base Tag Pqueue Token Schedule Runtime.
Open Scope Z_scope.

Inductive vop :=
| VAct (a : uact)                                             (* lf_schedule, lf_schedule_token, setting a presence bit, lf_request_stop *)
| VValue (now : Z) (tr : nat) (extra : Z) (d : list Z)        (* lf_schedule_value: schedule.c:71-87 *)
| VInt (now : Z) (tr : nat) (extra : Z) (v : Z)               (* lf_schedule_int: schedule.c:21-34 *)
| VCopy (now : Z) (tr : nat) (extra : Z) (src : option (list Z)) (* lf_schedule_copy: schedule.c:47-69 *)
| VMsg (tr : nat) (t : tag) (tok : option nat)                (* a message with a tag: reactor_common.c:482-560 *)
| VTok (o : top)                                              (* lf_set, lf_set_token, lf_new_token, lf_writable_copy, ... *)
| VIdle                                                       (* an interrupted wait: reactor.c:224-256 *)
| VTag (now : Z).                                             (* the next tag: reactor.c:219-277 *)

(** reactor_common.c:164-194 releases the copies of the last tag; then [enter].  [UB] also stands for the error exit of
    [_lf_advance_tag]. *)
Definition next_tag (P : prog) (kp nd : bool) (now : Z) (s : rt) : res rt :=
  do! k <- free_token_copies (ts_fresh (e_tok (r_env s))) (e_tok (r_env s));
  do! x <- enter P kp nd now (rt_env s (with_tok (r_env s) k));
  match x with Some (s1, _, _) => Ok s1 | None => UB end.

Definition on_env (s : rt) (r : res (env * Z)) : res rt := do! x <- r; Ok (rt_env s (fst x)).
Definition vstep (P : prog) (kp nd : bool) (s : rt) (o : vop) : res rt :=
  let e := r_env s in
  match o with
  | VAct a => act P nd s a
  | VValue now tr extra d => on_env s (sched_value nd now e tr extra d (Z.of_nat (length d)))
  | VInt now tr extra v => on_env s (sched_int nd now e tr extra v)
  | VCopy now tr extra src => on_env s (sched_copy nd now e tr extra src)
  | VMsg tr t tok => on_env s (sched_at e tr t tok)
  | VTok o => do! k <- top_step (e_tok e) o; Ok (rt_env s (with_tok e k))
  | VIdle => Ok (rt_env s (match min_tag (e_q e) with None => if kp then e else set_stop e (bump (e_cur e)) | Some _ => e end))
  | VTag now => next_tag P kp nd now s
  end.
Fixpoint vrun (P : prog) (kp nd : bool) (s : rt) (os : list vop) : res rt :=
  match os with [] => Ok s | o :: r => do! s1 <- vstep P kp nd s o; vrun P kp nd s1 r end.
