(** Model of the barrier on the advancement of tags of one environment,
    core/threaded/reactor_threaded.c, and of the end of [_lf_next_locked], which
    observes it.

    The mutex of the environment is held during each step of the model.  An event is
    represented by its tag.  What precedes line 408 of [_lf_next_locked] may release
    the mutex; the step [Next] is what follows.  [Exits] is lf_print_error_and_exit. *)
From Verif Require Import Base Tag.

(** The thread that advances the tag: it waits for the barrier with a proposed tag
    (line 161) and may have been signalled, or it does something else. *)
Inductive thread := Idle | Waiting (proposed : tag) (signalled : bool).

Record env := mkEnv {
  cur : tag;                 (* current_tag *)
  stop : tag;                (* stop_tag *)
  q : list tag;              (* event_q *)
  horizon : tag;             (* barrier.horizon *)
  requestors : Z;            (* barrier.requestors *)
  thr : thread }.

(** environment.c:53-54, 195-205 *)
Definition init (start stop_tag : tag) : env := mkEnv start stop_tag [] FOREVER_TAG 0 Idle.

(** What can be observed: requestor [k] asks for a barrier at tag [f] when the current
    tag is [c]; it releases it; the tag advances. *)
Inductive event := Raised (k : nat) (f c : tag) | Released (k : nat) | Advanced (t : tag).

Inductive outcome := Done (e : env) (l : list event) | Exits | Blocked.

(** reactor_common.c:224-227 and the lines that use it (56-59, 147-149, 165-167, 256-258) *)
Definition clip (e : env) (t : tag) : tag := if 0 <? tag_compare t (stop e) then stop e else t.

(** Lines 50-90 [_lf_increment_tag_barrier_locked]; the microstep wraps around *)
Definition raise (e : env) (f : tag) : env :=
  let f := clip e f in
  let h := if 0 <? tag_compare f (cur e) then
             if tag_compare f (horizon e) <? 0 then f else horizon e
           else mkTag (ttime (cur e)) ((tmicro (cur e) + 1) mod two32) in
  mkEnv (cur e) (stop e) (q e) h (requestors e + 1) (thr e).

(** Lines 99-115 [_lf_decrement_tag_barrier_locked] *)
Definition release (e : env) : option env :=
  let r := requestors e - 1 in
  if r <? 0 then None
  else if r =? 0 then
    Some (mkEnv (cur e) (stop e) (q e) FOREVER_TAG r (match thr e with Waiting p _ => Waiting p true | Idle => Idle end))
  else Some (mkEnv (cur e) (stop e) (q e) (horizon e) r (thr e)).

(** The head of the event queue *)
Definition head (l : list tag) : option tag :=
  fold_right (fun t o => match o with None => Some t | Some h => Some (if tag_compare t h <=? 0 then t else h) end) None l.

(** Lines 236-262 [get_next_event_tag] *)
Definition next_event (e : env) : option tag :=
  match head (q e) with
  | Some t => if tag_compare t (cur e) <? 0 then None else Some (clip e t)
  | None => Some (clip e FOREVER_TAG)
  end.

(** Lines 439-465, with [_lf_advance_tag] (reactor_common.c:642-674; its check of the
    head of the queue cannot fail here) and [_lf_pop_events] *)
Definition finish (e : env) (next : tag) : outcome :=
  if (0 <=? tag_compare next (stop e)) && (0 <=? tag_compare (cur e) (stop e)) then Done e []
  else if tag_compare (cur e) next <? 0 then
    Done (mkEnv next (stop e) (filter (fun t => negb (tag_compare t next =? 0)) (q e)) (horizon e) (requestors e) (thr e)) [Advanced next]
  else Exits.

Definition set_thr (e : env) (t : thread) : env := mkEnv (cur e) (stop e) (q e) (horizon e) (requestors e) t.
(** The condition of the loop, line 157 *)
Definition must_wait (e : env) (p : tag) : bool := (0 <? requestors e) && (0 <=? tag_compare p (horizon e)).

Inductive op :=
| Next                        (* the thread reaches line 408 *)
| Wakes                       (* the thread, having been signalled, leaves lf_cond_wait *)
| Spurious                    (* lf_cond_wait returns without a signal *)
| Raise (k : nat) (f : tag)
| Release (k : nat)
| Insert (t : tag)            (* an event is put on the queue *)
| SetStop (t : tag).

Section Model.
Variable federated : bool.    (* whether FEDERATED is defined *)

(** Lines 161-171 after waking up, then 430-431 *)
Definition resume (e : env) (p : tag) : outcome :=
  let p := clip e p in
  if must_wait e p then Done (set_thr e (Waiting p false)) []
  else match next_event e with None => Exits | Some next => finish (set_thr e Idle) next end.

Definition step (e : env) (o : op) : outcome :=
  match o with
  | Next =>
      match thr e with
      | Waiting _ _ => Blocked
      | Idle =>
          match next_event e with
          | None => Exits
          | Some next =>
              (* line 411 *)
              if 0 <? tag_compare next (stop e) then Done e []
              (* lines 139-157 *)
              else if negb federated || (requestors e =? 0) then finish e next
              else
                let p := clip e next in
                if ttime p =? FOREVER then finish e next
                else if must_wait e p then Done (set_thr e (Waiting p false)) []
                else finish e next
          end
      end
  | Wakes => match thr e with Waiting p true => resume e p | _ => Blocked end
  | Spurious => match thr e with Waiting p _ => resume e p | _ => Blocked end
  | Raise k f => Done (raise e f) [Raised k f (cur e)]
  | Release k => match release e with Some e => Done e [Released k] | None => Exits end
  | Insert t => Done (mkEnv (cur e) (stop e) (t :: q e) (horizon e) (requestors e) (thr e)) []
  (* reactor_common.c:145-150 *)
  | SetStop t => Done (mkEnv (cur e) (if tag_compare t (stop e) <? 0 then t else stop e) (q e) (horizon e) (requestors e) (thr e)) []
  end.
End Model.
