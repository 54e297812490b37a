(** Model of the STP-violation flags of reactions in a federate with decentralized
    coordination, and of the STP (tardiness) handlers: core/reactor_common.c
    [schedule_output_reactions], core/threaded/reactor_threaded.c [_lf_worker_do_work].

    Reactions are numbers.  What a reaction or a handler does is arbitrary: it is given by
    the outputs that it sets ([sets]) when it is invoked at a tag.  Whether it misses its
    deadline at a tag is arbitrary, too ([missed], lines 687 and 829 with 833: it needs a
    deadline).  One operation processes one reaction, with the reactions that are executed
    in its wake without going through the queue; reactions that run at the same time on
    several workers are processed one after the other, in any order.  Not modelled: modes. *)
From Verif Require Import Base.
From Verif Require Import Pqueue.   (* [upd] *)

(** The function of the reaction, its STP handler, its deadline handler. *)
Inductive kind := Body | Stp | Late.

(** What happens at a tag: a message for a receiver reaction; an invocation, with the flag
    when the reaction was taken up; a reaction triggered by what another one has set. *)
Inductive entry :=
| EMsg (r : nat) (tardy : bool)
| ERun (r : nat) (c : kind) (flag : bool)
| ETrig (u : nat) (c : kind) (d : nat).

Record tst := mkTst {
  t_tag : nat;                 (* tags are counted *)
  t_flag : nat -> bool;        (* is_STP_violated *)
  t_queue : list nat;          (* reactions whose status is not [inactive] *)
  t_set : nat -> list nat;     (* the outputs of a reaction that are present *)
  t_log : list entry }.        (* ghost: what has happened at this tag *)

Record prog := mkProg {
  handler : nat -> bool;           (* STP_handler != NULL *)
  late_handler : nat -> bool;      (* deadline_violation_handler != NULL *)
  receiver : nat -> bool;          (* is_an_input_reaction *)
  last_enabling : nat -> option nat;
  outputs : nat -> nat;            (* num_outputs *)
  reacts : nat -> nat -> list nat; (* reactions of the triggers of an output, in order *)
  sets : nat -> nat -> kind -> list nat;
  missed : nat -> nat -> bool }.

Definition mem (x : nat) (l : list nat) : bool := existsb (Nat.eqb x) l.
Definition set_flag (s : tst) (r : nat) (b : bool) : tst :=
  mkTst (t_tag s) (upd (t_flag s) r b) (t_queue s) (t_set s) (t_log s).
Definition note (s : tst) (e : entry) : tst :=
  mkTst (t_tag s) (t_flag s) (t_queue s) (t_set s) (e :: t_log s).
(** scheduler_NP.c:388-396 [lf_scheduler_trigger_reaction] *)
Definition trigger (s : tst) (r : nat) : tst :=
  if mem r (t_queue s) then s
  else mkTst (t_tag s) (t_flag s) (r :: t_queue s) (t_set s) (t_log s).

Section Program.
Variable g : prog.

(** reactor_common.c:684-706 [_lf_invoke_reaction], and the calls of handlers *)
Definition invoke (s : tst) (r : nat) (c : kind) (flag : bool) : tst :=
  mkTst (t_tag s) (t_flag s) (t_queue s) (upd (t_set s) r (sets g (t_tag s) r c ++ t_set s r)) (ERun r c flag :: t_log s).

(** Lines 733-740: the reactions of the outputs that are present, in order. *)
Definition downstream (s : tst) (r : nat) : list nat :=
  flat_map (fun o => if mem o (t_set s r) then reacts g r o else []) (seq 0 (outputs g r)).

(** Lines 741-783, for one reaction: [num_downstream_reactions] and
    [downstream_to_execute_now] are the accumulators. *)
Definition enable (r : nat) (c : kind) (inherited : bool) (a : tst * nat * option nat) (d : nat) : tst * nat * option nat :=
  let '(s, num, now) := a in
  let s := note (set_flag s d inherited) (ETrig r c d) in
  if match now with Some x => (x =? d)%nat | None => false end then (s, num, now)
  else
    let num := S num in
    if (num =? 1)%nat && match last_enabling g d with Some x => (x =? r)%nat | None => false end
    then (s, num, Some d)
    else
      let s := match now with Some x => trigger s x | None => s end in
      (trigger s d, num, None).

(** Lines 716-866 [schedule_output_reactions]; [c] only says on behalf of what it is
    called.  It calls itself for the reaction that is executed at once: [None] if it does
    so more than [n] times. *)
Fixpoint schedule (n : nat) (s : tst) (r : nat) (c : kind) : option tst :=
  match n with
  | O => None
  | S n =>
      let '(s, _, now) := fold_left (enable r c (t_flag s r)) (downstream s r) (s, O, None) in
      match now with
      | None => Some s
      | Some d =>
          let flag := t_flag s d in
          let stp := flag && handler g d in
          (* lines 805-826 *)
          match (if stp then match schedule n (invoke s d Stp flag) d Stp with
                             | Some s => Some (set_flag s d false) | None => None end
                 else Some s) with
          | None => None
          | Some s =>
              let late := missed g (t_tag s) d in
              (* lines 829-850 *)
              match (if late && late_handler g d then schedule n (invoke s d Late flag) d Late else Some s) with
              | None => None
              | Some s =>
                  (* lines 851-858 *)
                  match (if stp || late then Some s else schedule n (invoke s d Body flag) d Body) with
                  | None => None
                  | Some s => Some (set_flag s d false)   (* line 863 *)
                  end
              end
          end
      end
  end.

(** reactor_threaded.c:838-858 in [_lf_worker_do_work] *)
Definition work (n : nat) (s : tst) (r : nat) : option tst :=
  let flag := t_flag s r in
  if missed g (t_tag s) r then
    (* lines 676-707 [_lf_worker_handle_deadline_violation_for_reaction] *)
    if late_handler g r then schedule n (invoke s r Late flag) r Late else Some s
  else if flag && negb (receiver g r) && handler g r then
    (* lines 721-770 [_lf_worker_handle_STP_violation_for_reaction] *)
    match schedule n (set_flag (invoke s r Stp flag) r false) r Stp with
    | Some s => Some (set_flag s r false)
    | None => None
    end
  else
    (* lines 804-815 [_lf_worker_invoke_reaction] *)
    match schedule n (invoke s r Body flag) r Body with
    | Some s => Some (set_flag s r false)
    | None => None
    end.

Inductive op :=
| TPop (r : nat) (tardy : bool) (* an event for [r], reactor_common.c:258-300 *)
| TNow (r : nat) (tardy : bool) (* a message at the current tag, lines 588-634 *)
| TRun (r : nat)                (* a worker takes up a reaction *)
| TNext.                        (* the next tag *)

Definition tstep (n : nat) (s : tst) (o : op) : option tst :=
  match o with
  | TPop r tardy =>
      if mem r (t_queue s) then Some s
      else Some (trigger (note (if tardy then set_flag s r true else s) (EMsg r tardy)) r)
  | TNow r tardy =>
      if mem r (t_queue s) then Some s
      else Some (trigger (note (set_flag s r tardy) (EMsg r tardy)) r)
  | TRun r =>
      if mem r (t_queue s) then
        match work n s r with
        | Some s => Some (mkTst (t_tag s) (t_flag s) (filter (fun x => negb (x =? r)%nat) (t_queue s)) (t_set s) (t_log s))
        | None => None
        end
      else None
  | TNext =>
      match t_queue s with
      | [] => Some (mkTst (S (t_tag s)) (t_flag s) [] (fun _ => []) [])
      | _ => None
      end
  end.
Fixpoint trun (n : nat) (s : tst) (l : list op) : option tst :=
  match l with
  | [] => Some s
  | o :: r => match tstep n s o with Some s' => trun n s' r | None => None end
  end.
Definition tinit : tst := mkTst 0 (fun _ => false) [] (fun _ => []) [].
End Program.
