(** Model of the coordination of enclaves: core/federated/RTI/rti_local.c together with what the enclaves do around
    it, core/threaded/reactor_threaded.c:236-262, 310-466, 889-912 and scheduler_sync_tag_advance.c:42-63.

    The search for grants is the one of the federations' coordinator (rti_common.c, Rti.v), whose state is reused; an
    enclave is always "connected" and nothing is in transit.  Its log of what each node is sent records the grants and
    the events that other enclaves put into the queue of the node.  An enclave has one leading thread at a time, and its
    reactions are left nondeterministic.  Left out: waiting for physical time, tracing, the assertion at the first grant. *)
From Verif Require Import Base Tag RtiDelays Rti.
From Verif Require Import Pqueue.   (* [upd] *)
Open Scope Z_scope.

Section Local.
Variable tp : topo.
Variable start : Z.

(** rti_common.c:274-283 with the functions of rti_local.c:174-192: provisional grants are ignored. *)
Definition notify_if_safe_l (s : rti) (e : nat) : rti :=
  let (s, g) := grant_if_safe tp start s e in
  match g with
  | Some (t, provisional) => if tag_compare t NEVER_TAG =? 0 then s else if provisional then s else notify_tag (fun _ => true) s e t
  | None => s
  end.
(** rti_common.c:240-249; for [fuel] see Rti.v *)
Fixpoint notify_down_l (fuel : nat) (sv : rti * (nat -> bool)) (e : nat) : rti * (nat -> bool) :=
  match fuel with
  | O => sv
  | S fuel =>
    fold_left (fun (sv : rti * (nat -> bool)) j =>
      if snd sv j then sv else notify_down_l fuel (notify_if_safe_l (fst sv) j, snd sv) j)
      (tp_down tp e) (fst sv, upd (snd sv) e true)
  end.
Definition notify_downstream_l (s : rti) (e : nat) : rti := fst (notify_down_l (S (tp_n tp)) (s, fun _ => false) e).
(** rti_common.c:251-272 *)
Definition update_next_l (s : rti) (e : nat) (t : tag) : rti :=
  let s := on s e (set_next t) in
  let s := match tp_up tp e with [] => on s e (set_granted t) | _ => notify_if_safe_l s e end in
  notify_downstream_l s e.
(** rti_common.c:60-82 *)
Definition tag_complete_l (s : rti) (e : nat) (t : tag) : rti :=
  fold_left (fun s j => notify_downstream_l (notify_if_safe_l s j) j) (tp_down tp e) (on s e (set_completed t)).

(** ** Enclaves *)
Inductive phase :=
| Idle                         (* about to call _lf_next_locked *)
| Asked (t : tag)              (* rti_local.c:90: has left the critical section of the enclave with its next tag, has not yet entered that of the RTI *)
| Waiting (t previous : tag)   (* rti_local.c:122-134 *)
| Ready (t g : tag)            (* has asked for [t] and got the grant [g], not before [t]; reactor_threaded.c:327-466 *)
| Running                      (* executes the reactions of its current tag *)
| Completing (c : tag)         (* scheduler_sync_tag_advance.c:44, before line 49 *)
| Over.                        (* reactor_threaded.c:911 *)

Record enc := mkEnc {
  e_phase : phase;
  e_queue : list tag;          (* the tags of the events in its queue *)
  e_cur : tag;                 (* current_tag, once it has started one *)
  e_stop : tag;                (* stop_tag *)
  e_promise : tag }.           (* the largest tag it has asked for *)

Record sys := mkSys { y_rti : rti; y_enc : nat -> enc }.
Definition init_enc (stops : nat -> tag) (i : nat) : enc := mkEnc Idle [mkTag start 0] NEVER_TAG (stops i) (mkTag start 0).
Definition init_sys (stops : nat -> tag) : sys := mkSys init_rti (init_enc stops).

Definition tag_leb (a b : tag) : bool := tag_compare a b <=? 0.
Definition tag_ltb (a b : tag) : bool := tag_compare a b <? 0.
(** The tags a program works with: not before the start, and room for a microstep per enclave. *)
Definition smallb (t : tag) : bool := (start <=? ttime t) && (ttime t <? FOREVER) && (0 <=? tmicro t) && (tmicro t <=? UINT_MAX - Z.of_nat (tp_n tp)).
(** The delay of an event is at least the recorded delay. *)
Definition has_connection (i j : nat) (d : Z) : bool := existsb (fun u => (fst u =? i)%nat && (snd u <=? d)) (tp_up tp j).

(** reactor_threaded.c:236-262 *)
Definition next_tag (e : enc) : tag :=
  let h := fold_right min_tag FOREVER_TAG (e_queue e) in if tag_ltb (e_stop e) h then e_stop e else h.

Inductive lop :=
| EEvent (i : nat) (t : tag)         (* an event not caused by the current tag: a timer *)
| EPhysical (i : nat) (t : tag)      (* an event scheduled by a thread of the environment: a physical action *)
| EStop (i : nat) (t : tag)          (* the stop tag is lowered, lf_request_stop *)
| ERead (i : nat)                    (* reactor_threaded.c:319, rti_local.c:79-90 *)
| ERecord (i : nat)                  (* rti_local.c:91-119 *)
| EReturn (i : nat)                  (* rti_local.c:122-143, reactor_threaded.c:325-329 *)
| EStarve (i : nat)                  (* reactor_threaded.c:331-341, without keepalive *)
| EStart (i : nat)                   (* reactor_threaded.c:393-466 *)
| ESched (i : nat) (t : tag)         (* a reaction schedules an action *)
| ESend (i j : nat) (d : Z)          (* a reaction puts an event into the queue of [j], rti_local.c:157-168 *)
| EComplete (i : nat)
| ELtc (i : nat)                     (* rti_local.c:145-155 *)
| EEnd (i : nat).                    (* reactor_threaded.c:911: LTC of FOREVER *)

Definition set_enc (y : sys) (i : nat) (e : enc) : sys := mkSys (y_rti y) (upd (y_enc y) i e).
Definition set_phase (e : enc) (p : phase) : enc := mkEnc p (e_queue e) (e_cur e) (e_stop e) (e_promise e).
Definition add_event (e : enc) (t : tag) : enc := mkEnc (e_phase e) (t :: e_queue e) (e_cur e) (e_stop e) (e_promise e).
Definition overb (e : enc) : bool := match e_phase e with Over => true | _ => false end.

(** [None]: not possible *)
Definition loc_step (y : sys) (o : lop) : option sys :=
  match o with
  | EEvent i t =>
    let e := y_enc y i in
    if negb (overb e) && smallb t && tag_leb (e_promise e) t && tag_ltb (e_cur e) t then Some (set_enc y i (add_event e t)) else None
  | EPhysical i t =>
    let e := y_enc y i in
    if negb (overb e) && smallb t && tag_ltb (e_cur e) t then Some (set_enc y i (add_event e t)) else None
  | EStop i t =>
    let e := y_enc y i in
    if negb (overb e) && smallb t && tag_ltb (e_cur e) t && tag_ltb t (e_stop e) then Some (set_enc y i (mkEnc (e_phase e) (e_queue e) (e_cur e) t (e_promise e))) else None
  | ERead i =>
    let e := y_enc y i in
    match e_phase e with
    | Idle => let t := next_tag e in Some (set_enc y i (mkEnc (Asked t) (e_queue e) (e_cur e) (e_stop e) (if tag_ltb (e_promise e) t then t else e_promise e)))
    | _ => None
    end
  | ERecord i =>
    let e := y_enc y i in
    match e_phase e with
    | Asked t =>
      let s := update_next_l (y_rti y) i t in
      Some (mkSys s (upd (y_enc y) i (set_phase e (if tag_leb t (r_granted (s i)) then Ready t t else Waiting t (r_granted (y_rti y i))))))
    | _ => None
    end
  | EReturn i =>
    let e := y_enc y i in
    match e_phase e with
    | Waiting t previous =>
      let g := r_granted (y_rti y i) in
      if tag_ltb previous g then Some (set_enc y i (set_phase e (if tag_ltb g t then Idle else Ready t g))) else None
    | _ => None
    end
  | EStarve i =>
    let e := y_enc y i in
    match e_phase e with
    | Ready t g =>
      if tag_eqb (next_tag e) FOREVER_TAG then
        let c := mkTag (ttime (e_cur e)) ((tmicro (e_cur e) + 1) mod two32) in
        Some (set_enc y i (mkEnc (Ready t g) (e_queue e) (e_cur e) (if tag_ltb c (e_stop e) then c else e_stop e) (e_promise e)))
      else None
    | _ => None
    end
  | EStart i =>
    let e := y_enc y i in
    match e_phase e with
    | Ready _ _ =>
      let t := next_tag e in
      (* waiting for FOREVER does not end; 438: the stop tag has been executed *)
      if tag_ltb t FOREVER_TAG && tag_ltb (e_cur e) (e_stop e) then
        Some (set_enc y i (mkEnc Running (filter (fun x => negb (tag_eqb t x)) (e_queue e)) t (e_stop e) (e_promise e)))
      else None
    | _ => None
    end
  | ESched i t =>
    let e := y_enc y i in
    match e_phase e with
    | Running => if smallb t && tag_ltb (e_cur e) t then Some (set_enc y i (add_event e t)) else None
    | _ => None
    end
  | ESend i j d =>
    let e := y_enc y i in
    match e_phase e with
    | Running =>
      let g := delay_tag (e_cur e) d in
      (* no wrap-around of the microstep, no saturation *)
      if has_connection i j d && in_int64b d && (tmicro (e_cur e) <? UINT_MAX) && smallb g then
        let s := on (y_rti y) j (fun n => if tag_ltb g (r_next n) then set_next g n else n) in
        (* nothing is done with the events of an enclave that has ended *)
        if overb (y_enc y j) then Some (mkSys s (y_enc y))
        else Some (mkSys (on s j (add_sent (MMsg g))) (upd (y_enc y) j (add_event (y_enc y j) g)))
      else None
    | _ => None
    end
  | EComplete i =>
    let e := y_enc y i in
    match e_phase e with Running => Some (set_enc y i (set_phase e (Completing (e_cur e)))) | _ => None end
  | ELtc i =>
    let e := y_enc y i in
    match e_phase e with
    | Completing c => Some (mkSys (tag_complete_l (y_rti y) i c) (upd (y_enc y) i (set_phase e Idle)))
    | _ => None
    end
  | EEnd i =>
    let e := y_enc y i in
    match e_phase e with
    | Idle => Some (mkSys (tag_complete_l (y_rti y) i FOREVER_TAG) (upd (y_enc y) i (mkEnc Over [] (e_cur e) (e_stop e) (e_promise e))))
    | _ => None
    end
  end.

Fixpoint loc_run (y : sys) (l : list lop) : option sys :=
  match l with
  | [] => Some y
  | o :: l => match loc_step y o with Some y => loc_run y l | None => None end
  end.
End Local.
