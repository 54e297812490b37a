(** Model of [lf_request_stop] in a threaded program that is not federated,
    core/threaded/reactor_threaded.c:474-530, interleaved with the advancement of the
    tags of the environments (one per enclave).

    An environment is advanced by whichever of its workers calls
    [_lf_sched_advance_tag_locked] when all reactions of the current tag have ended,
    holding the mutex of the environment.  An event is represented by its tag.  Waiting
    for physical time or for a grant of the local coordinator ends at an arbitrary moment,
    except for waiting until FOREVER, which only a signal ends ([asleep]); the worker that
    a signal wakes does [Advance] again.
    The barriers that lf_request_stop raises have no effect, because [_lf_next_locked]
    looks at them in federated programs only (lines 418-433): they are left out. *)
From Verif Require Import Base Tag.

Record env := mkEnv {
  cur : tag;               (* current_tag *)
  stop : tag;              (* stop_tag *)
  q : list tag;            (* event_q *)
  asleep : bool;           (* waits for event_q_changed, without a timeout *)
  ended : bool }.          (* its workers have been told to end *)

(** What the calling thread has done so far; [i] is the next environment. *)
Inductive phase := NotYet | Collecting (i : nat) (max : tag) | Setting (i : nat) (max : tag) | Requested.

Record state := mkState {
  envs : nat -> env;
  completed : tag;         (* _latest_tag_completed, scheduler_sync_tag_advance.c:25, shared by all environments *)
  ph : phase }.

Inductive event := Shutdown (i : nat) (t : tag) | Ends (i : nat) | StopSet (i : nat) (c s : tag).

Definition upd (f : nat -> env) (i : nat) (e : env) : nat -> env := fun j => if Nat.eqb j i then e else f j.

(** microstep + 1, a uint32_t *)
Definition bump (t : tag) : tag := mkTag (ttime t) ((tmicro t + 1) mod two32).
(** reactor_common.c:145-150 *)
Definition set_stop (e : env) (t : tag) : env :=
  mkEnv (cur e) (if tag_compare t (stop e) <? 0 then t else stop e) (q e) (asleep e) (ended e).

Definition head (l : list tag) : option tag :=
  fold_right (fun t o => match o with None => Some t | Some h => Some (if tag_compare t h <=? 0 then t else h) end) None l.
(** Lines 236-262; that an event is not earlier than the current tag is property C22. *)
Definition next_event (e : env) : tag :=
  let t := match head (q e) with Some t => t | None => FOREVER_TAG end in
  if 0 <? tag_compare t (stop e) then stop e else t.

Inductive op :=
| Advance (i : nat) (granted : bool)   (* [_lf_sched_advance_tag_locked] *)
| Insert (i : nat) (t : tag)           (* an event is scheduled; signals event_q_changed *)
| Request.                             (* the next step of lf_request_stop *)

Section Model.
Variable n : nat.               (* the number of environments *)
Variable enclaves : bool.       (* whether LF_ENCLAVES is defined *)
Variable keepalive : bool.
Variable inside : option nat.   (* the environment whose reaction calls lf_request_stop, if a reaction does *)

(** Lines 317-465 *)
Definition next_locked (i : nat) (granted : bool) (e : env) : env * list event :=
  if enclaves && negb granted then (e, [])
  else
    let starved := if enclaves then tag_compare (next_event e) FOREVER_TAG =? 0 else match q e with [] => true | _ => false end in
    let e := if starved && negb keepalive then set_stop e (bump (cur e)) else e in
    let next := next_event e in
    if ttime next =? FOREVER then (mkEnv (cur e) (stop e) (q e) true (ended e), [])
    else if (0 <=? tag_compare next (stop e)) && (0 <=? tag_compare (cur e) (stop e)) then (e, [])
    else
      let e := mkEnv next (stop e) (filter (fun t => negb (tag_compare t next =? 0)) (q e)) false (ended e) in
      (e, if 0 <=? tag_compare next (stop e) then [Shutdown i next] else []).

(** scheduler_sync_tag_advance.c:27-66 *)
Definition advance (s : state) (i : nat) (granted : bool) : state * list event :=
  let e := envs s i in
  if (tag_compare (completed s) (cur e) =? 0) && (0 <=? tag_compare (cur e) (stop e)) then
    (mkState (upd (envs s) i (mkEnv (cur e) (stop e) (q e) (asleep e) true)) (completed s) (ph s), [Ends i])
  else
    let r := next_locked i granted e in
    (mkState (upd (envs s) i (fst r)) (cur e) (ph s), snd r).

(** A reaction of environment [i] is executing lf_request_stop *)
Definition busy (s : state) (i : nat) : bool :=
  match inside, ph s with
  | Some j, (Collecting _ _ | Setting _ _) => Nat.eqb i j
  | _, _ => false
  end.

(** Lines 474-530, one locked section per step *)
Definition request (s : state) : option (state * list event) :=
  match ph s with
  | NotYet => Some (mkState (envs s) (completed s) (Collecting 0 NEVER_TAG), [])
  | Collecting i max =>
      if (i <? n)%nat then
        let max := if 0 <? tag_compare (cur (envs s i)) max then cur (envs s i) else max in
        Some (mkState (envs s) (completed s) (Collecting (S i) max), [])
      else Some (mkState (envs s) (completed s) (Setting 0 max), [])
  | Setting i max =>
      if (i <? n)%nat then
        let e := set_stop (envs s i) (bump max) in
        let f := upd (envs s) i e in
        (* line 526 signals the environment that env points to, the first one *)
        let e0 := f O in
        Some (mkState (upd f O (mkEnv (cur e0) (stop e0) (q e0) false (ended e0))) (completed s) (Setting (S i) max), [StopSet i (cur e) (stop e)])
      else Some (mkState (envs s) (completed s) Requested, [])
  | Requested => None
  end.

(** [None]: the operation is not possible in this state. *)
Definition step (s : state) (o : op) : option (state * list event) :=
  match o with
  | Advance i granted =>
      if (i <? n)%nat && negb (ended (envs s i)) && negb (asleep (envs s i)) && negb (busy s i) then Some (advance s i granted) else None
  | Insert i t =>
      let e := envs s i in
      if (i <? n)%nat then Some (mkState (upd (envs s) i (mkEnv (cur e) (stop e) (t :: q e) false (ended e))) (completed s) (ph s), []) else None
  | Request => request s
  end.

(** Lines 557-657: every environment starts at the start tag; if that is the stop tag,
    the shutdown reactions are triggered. *)
Definition init (start : tag) (stops : nat -> tag) : state :=
  mkState (fun i => mkEnv start (stops i) [] false false) NEVER_TAG NotYet.
Definition init_events (start : tag) (stops : nat -> tag) : list event :=
  flat_map (fun i => if 0 <=? tag_compare start (stops i) then [Shutdown i start] else []) (seq 0 n).
End Model.
