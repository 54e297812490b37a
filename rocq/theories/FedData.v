(** The federation of Federation.v with the data that federates compute and exchange, for the determinism of federated
    execution (C74).

    A federate is a deterministic program: a reaction to all inputs of a tag, which gives the new state and a list of
    effects, performed one after the other during the tag (core/threaded/reactor_threaded.c:803-870, reactions of one
    tag; C26, C63 show that their result does not depend on the scheduler).  Payloads travel with the messages of
    Federation.v: federate.c:2597-2672 (sending), rti_remote.c:342-478 (forwarding), federate.c:537-690 (receiving).  Events
    from outside (startup, timers, physical actions) are given with their tags; when they are inserted is not. *)
From Verif Require Import Base Tag RtiDelays Rti Federation.
From Verif Require Import Pqueue.   (* [upd] *)
Open Scope Z_scope.

Section FedData.
Variables St V : Type.

(** What a reaction does: schedule an action (reactor_common.c:482-600), send on a connection with delay [d]. *)
Inductive effect := ESched (t : tag) (v : V) | ESend (j : nat) (d : Z) (v : V).
(** What is present at a tag: an event from outside, an action of the federate itself, a message from federate [k]. *)
Inductive input := IExt (v : V) | IOwn (v : V) | IMsg (k : nat) (v : V).

Record program := mkProgram {
  g_init : nat -> St;
  g_ext : nat -> list (tag * V);                          (* the events from outside *)
  g_react : nat -> St -> tag -> list input -> St * list effect }.

Record dfed := mkDfed {
  d_state : St;
  d_todo : list effect;                 (* of the current tag, not yet performed *)
  d_log : list (tag * effect);          (* performed, with the tag at which *)
  d_ev : list (tag * input);            (* the event queue, with the values *)
  d_up : list (nat * tag * V);          (* payloads on the way to the coordinator: destination, tag, value *)
  d_in : list (tag * input);            (* payloads on the way from the coordinator *)
  d_ext : list (tag * V);               (* events from outside that have not happened yet *)
  d_trace : list (tag * list input) }.  (* the tags executed and what was present *)
Record dsys := mkDsys { d_sys : sys; d_fed : nat -> dfed }.

Variable g : program.
Definition init_dfed (i : nat) : dfed := mkDfed (g_init g i) [] [] [] [] [] (g_ext g i) [].
Definition init_dsys (start : Z) : dsys := mkDsys (init_sys start) init_dfed.

(** The first event with tag [t], and the others. *)
Fixpoint pick (t : tag) (l : list (tag * V)) : option (V * list (tag * V)) :=
  match l with
  | [] => None
  | (x, v) :: l => if tag_eqb t x then Some (v, l) else match pick t l with Some (w, r) => Some (w, (x, v) :: r) | None => None end
  end.

Variable tp : topo.
Variable start : Z.

Definition op_fed (o : fop) : nat :=
  match o with FNet i _ | FEvent i _ | FStart i _ | FSched i _ | FSend i _ _ | FComplete i _ | FResign i | FRecv i | RTake i => i end.

(** May the operation happen?  A NET is a promise about the events from outside (C57); a tag is started when all of them
    up to it have happened (federate.c:2405-2410, reactor_threaded.c:381-403: physical time has passed it); effects are
    performed in order, and a tag is complete when all are.  Leaving is not part of this model. *)
Definition d_allowed (y : dsys) (o : fop) : bool :=
  let d := d_fed y (op_fed o) in
  (op_fed o <? tp_n tp)%nat &&
  match o with
  | FNet i t => forallb (fun e => tag_leb t (fst e)) (d_ext d)
  | FEvent i t => match pick t (d_ext d) with Some _ => true | None => false end
  | FStart i t => forallb (fun e => tag_ltb t (fst e)) (d_ext d)
  | FSched i t => match d_todo d with ESched t' _ :: _ => tag_eqb t t' | _ => false end
  | FSend i j c => match d_todo d with ESend j' c' _ :: _ => (j =? j')%nat && (c =? c') | _ => false end
  | FComplete i _ => match d_todo d with [] => true | _ => false end
  | FResign _ => false
  | FRecv _ | RTake _ => true
  end.

Definition at_tag {A} (t : tag) (l : list (tag * A)) : list (tag * A) := filter (fun e => tag_eqb t (fst e)) l.
Definition not_at {A} (t : tag) (l : list (tag * A)) : list (tag * A) := filter (fun e => negb (tag_eqb t (fst e))) l.

(** Where the data go. *)
Definition d_note (y : dsys) (o : fop) : nat -> dfed :=
  let ds := d_fed y in
  match o with
  | FEvent i t =>
    let d := ds i in
    match pick t (d_ext d) with
    | Some (v, rest) => upd ds i (mkDfed (d_state d) (d_todo d) (d_log d) ((t, IExt v) :: d_ev d) (d_up d) (d_in d) rest (d_trace d))
    | None => ds
    end
  | FStart i t =>
    (* reactor_common.c:229-337 [_lf_pop_events]: all events with this tag *)
    let d := ds i in
    let present := map snd (at_tag t (d_ev d)) in
    let (st, todo) := g_react g i (d_state d) t present in
    upd ds i (mkDfed st todo (d_log d) (not_at t (d_ev d)) (d_up d) (d_in d) (d_ext d) (d_trace d ++ [(t, present)]))
  | FSched i t =>
    let d := ds i in
    match d_todo d with
    | ESched t' v :: rest =>
      upd ds i (mkDfed (d_state d) rest (d_log d ++ [(f_done (y_fed (d_sys y) i), ESched t' v)]) ((t', IOwn v) :: d_ev d) (d_up d) (d_in d) (d_ext d) (d_trace d))
    | _ => ds
    end
  | FSend i j c =>
    let d := ds i in
    match d_todo d with
    | ESend j' c' v :: rest =>
      let o := f_done (y_fed (d_sys y) i) in
      upd ds i (mkDfed (d_state d) rest (d_log d ++ [(o, ESend j' c' v)]) (d_ev d) (d_up d ++ [(j', delay_tag o c', v)]) (d_in d) (d_ext d) (d_trace d))
    | _ => ds
    end
  | RTake i =>
    match f_up (y_fed (d_sys y) i), d_up (ds i) with
    | UMsg j t _ :: _, (_, _, v) :: rest =>
      let d := ds i in
      let ds1 := upd ds i (mkDfed (d_state d) (d_todo d) (d_log d) (d_ev d) rest (d_in d) (d_ext d) (d_trace d)) in
      if r_connected (y_rti (d_sys y) j) then
        let e := ds1 j in
        upd ds1 j (mkDfed (d_state e) (d_todo e) (d_log e) (d_ev e) (d_up e) (d_in e ++ [(t, IMsg i v)]) (d_ext e) (d_trace e))
      else ds1
    | _, _ => ds
    end
  | FRecv i =>
    let d := ds i in
    match nth_error (r_sent (y_rti (d_sys y) i)) (f_rcvd (y_fed (d_sys y) i)), d_in d with
    | Some (MMsg _), x :: rest => upd ds i (mkDfed (d_state d) (d_todo d) (d_log d) (x :: d_ev d) (d_up d) rest (d_ext d) (d_trace d))
    | _, _ => ds
    end
  | FNet _ _ | FComplete _ _ | FResign _ => ds
  end.

Definition d_step (y : dsys) (o : fop) : option dsys :=
  if d_allowed y o then
    match sys_step tp start (d_sys y) o with Some s => Some (mkDsys s (d_note y o)) | None => None end
  else None.

Fixpoint d_run (y : dsys) (l : list fop) : option dsys :=
  match l with
  | [] => Some y
  | o :: l => match d_step y o with Some y => d_run y l | None => None end
  end.
End FedData.

Arguments ESched {V}. Arguments ESend {V}. Arguments IExt {V}. Arguments IOwn {V}. Arguments IMsg {V}.
Arguments g_init {St V}. Arguments g_ext {St V}. Arguments g_react {St V}.
Arguments mkProgram {St V}. Arguments mkDfed {St V}. Arguments mkDsys {St V}.
Arguments d_state {St V}. Arguments d_todo {St V}. Arguments d_log {St V}. Arguments d_ev {St V}. Arguments d_up {St V}.
Arguments d_in {St V}. Arguments d_ext {St V}. Arguments d_trace {St V}. Arguments d_sys {St V}. Arguments d_fed {St V}.
Arguments init_dfed {St V}. Arguments init_dsys {St V}. Arguments pick {V}. Arguments d_allowed {St V}. Arguments d_note {St V}.
Arguments d_step {St V}. Arguments d_run {St V}.
