(** Model of the coordinator's threads around the start of a federation: the start times
    (core/federated/RTI/rti_remote.c:780-837) and grants that wait for them (181-212,
    core/federated/RTI/rti_common.c:155-184, 275-283).

    One thread per federate.  Every operation is what a thread does between taking and
    releasing the coordinator's mutex, which a wait on a condition also releases.
    Simplifications: grants follow from completed tags only (rti_common.c:158-184; grants
    that follow from announced tags wait in the same function, and are left out),
    connections have no delay, and only the direct downstream federates are looked at. *)
From Verif Require Import Base Tag ClockRounds.

Inductive thread :=
| Propose                                              (* its federate has not proposed a start time *)
| AwaitAll                                             (* waits for the other proposals *)
| SendStart                                            (* about to send the start time *)
| MarkSent                                             (* has sent it, about to take the mutex again *)
| Listen
| Walk (e : nat) (t : tag) (rest : list nat)           (* holds [t] for [e], waits until [e] has its start time *)
| Gone.
Inductive status := Pending | Granted | NotConnected.   (* rti_common.h:26-31 *)
Inductive message := Start | Grant (t : tag).
Record state := mkState {
  thread_of : nat -> thread; stat : nat -> status; count : nat;      (* num_feds_proposed_start *)
  completed : nat -> tag; last : nat -> tag;                         (* last_granted *)
  sent : nat -> list message }.                                      (* to each federate, last first *)
Record topology := mkTopology { size : nat; ups : nat -> list nat; downs : nat -> list nat }.

Definition set_thread (i : nat) (t : thread) (s : state) : state := mkState (fupd (thread_of s) i t) (stat s) (count s) (completed s) (last s) (sent s).
Definition send (i : nat) (m : message) (s : state) : state := mkState (thread_of s) (stat s) (count s) (completed s) (last s) (fupd (sent s) i (m :: sent s i)).
Definition set_last (i : nat) (t : tag) (s : state) : state := mkState (thread_of s) (stat s) (count s) (completed s) (fupd (last s) i t) (sent s).
Definition set_stat (i : nat) (x : status) (s : state) : state := mkState (thread_of s) (fupd (stat s) i x) (count s) (completed s) (last s) (sent s).

(** rti_common.c:158-184; the federate waits for a tag that is not later *)
Definition min_completed (s : state) (l : list nat) : tag :=
  fold_right (fun u m => match stat s u with NotConnected => m | _ => if tag_compare (completed s u) m <? 0 then completed s u else m end) FOREVER_TAG l.
Definition grant (tp : topology) (s : state) (e : nat) : option tag :=
  let m := min_completed s (ups tp e) in if 0 <? tag_compare m (last s e) then Some m else None.
(** rti_remote.c:192-212: writing to a closed connection fails *)
Definition write_grant (e : nat) (t : tag) (s : state) : state :=
  match stat s e with Granted => set_last e t (send e (Grant t) s) | _ => s end.
(** rti_remote.c:181-191 for every downstream federate; [i] is the thread *)
Fixpoint walk (tp : topology) (s : state) (i : nat) (l : list nat) : state :=
  match l with
  | [] => set_thread i Listen s
  | e :: l =>
    match grant tp s e with
    | None => walk tp s i l
    | Some t =>
      match stat s e with
      | NotConnected => walk tp s i l
      | Pending => set_thread i (Walk e t l) s
      | Granted => walk tp (write_grant e t s) i l
      end
    end
  end.

Inductive op :=
| Timestamp (i : nat)      (* rti_remote.c:780-812 *)
| Wake (i : nat)           (* rti_remote.c:806-809 *)
| Write (i : nat)          (* rti_remote.c:814-828 *)
| Mark (i : nat)           (* rti_remote.c:830-836 *)
| Ltc (i : nat) (t : tag)  (* the federate has completed [t] *)
| Resume (i : nat)         (* rti_remote.c:188-212 *)
| Die (i : nat).           (* rti_remote.c:1083-1091: noticed by a thread that reads *)
Definition step (tp : topology) (s : state) (o : op) : option state :=
  match o with
  | Timestamp i =>
    match thread_of s i with
    | Propose => let c := S (count s) in Some (mkState (fupd (thread_of s) i (if Nat.eqb c (size tp) then SendStart else AwaitAll)) (stat s) c (completed s) (last s) (sent s))
    | _ => None
    end
  | Wake i => match thread_of s i with AwaitAll => if Nat.ltb (count s) (size tp) then None else Some (set_thread i SendStart s) | _ => None end
  | Write i => match thread_of s i with SendStart => Some (set_thread i MarkSent (send i Start s)) | _ => None end
  | Mark i => match thread_of s i with MarkSent => Some (set_thread i Listen (set_stat i Granted s)) | _ => None end
  | Ltc i t =>
    match thread_of s i with
    | Listen => if tag_compare (completed s i) t <? 0 then Some (walk tp (mkState (thread_of s) (stat s) (count s) (fupd (completed s) i t) (last s) (sent s)) i (downs tp i)) else None
    | _ => None
    end
  | Resume i => match thread_of s i with Walk e t l => match stat s e with Pending => None | _ => Some (walk tp (write_grant e t s) i l) end | _ => None end
  | Die i => match thread_of s i with Propose | Listen => Some (set_thread i Gone (set_stat i NotConnected s)) | _ => None end
  end.
Fixpoint run (tp : topology) (s : state) (l : list op) : state :=
  match l with [] => s | o :: l => match step tp s o with Some s => run tp s l | None => run tp s l end end.
Definition init : state := mkState (fun _ => Propose) (fun _ => Pending) 0 (fun _ => NEVER_TAG) (fun _ => NEVER_TAG) (fun _ => []).
