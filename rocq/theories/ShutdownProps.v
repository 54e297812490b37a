(** C89: the end of a federation. *)
From Verif Require Import Base ClockRounds Shutdown ShutdownSpec ShutdownProofs.
Local Open Scope nat_scope.

(** However the federates are connected and whichever of them terminate, in whichever order,
    normally or not, and however the threads of all of them and of the coordinator are
    scheduled: together they act at most [n * (3 * n + 9)] times; and when nobody can act any
    more, whoever has begun to terminate has exited, the coordinator has finished with it,
    and its mutex is free.  So nobody waits for ever, and a federation that every federate
    leaves ends.
    Partial: messages in flight are left out (the threads that listen never wait for a
    reaction), and every message has a known type: see [C89_bad_message_refuted]. *)
Theorem C89_ends_partial : forall n link l, Forall (within n) l ->
  let s := run n link (start link) l in
  actions n link (start link) l <= n * (3 * n + 9) /\
  (quiet n link s -> mutex s = None /\ forall i, i < n -> place_of s i = Running \/ over s i).
Proof.
  intros n link l F s. split; [pose proof (actions_mu n link l (start link) F); pose proof (start_mu n link); lia|].
  intros Q. assert (IV : Inv n s) by (apply inv_run; [apply inv_start|exact F]). split; [exact (quiet_mutex n link s IV Q)|].
  intros i L. destruct (place_of s i) eqn:P; [left; reflexivity|right; apply (quiet_over n link s IV Q i L); rewrite P; discriminate..].
Qed.
Print Assumptions C89_ends_partial.

(** What a federate sent before it terminated normally is read: once it has exited, each
    federate to which it had a connection has read that connection to its end, or has begun
    to close its own. *)
Theorem C89_flushed_partial : forall n link l i k, k < n -> link i k = true ->
  let s := run n link (start link) l in
  place_of s i = Exited -> normal s i = true -> place_of s k = Running \/ place_of s k = Resigned ->
  hears s k i = false /\ out_open s i k = false.
Proof.
  intros n link l i k L LK s P N R. assert (IV : Inv2 n link s) by (apply inv2_run, inv2_start).
  pose proof (j_flush n link s IV i) as F. unfold flushing in F. rewrite P in F. destruct (F N k L LK) as [A B]. split; [|exact A].
  destruct (hears s k i) eqn:H; [|reflexivity]. destruct (j_unread n link s IV k i LK H) as [X|X]; [congruence|contradiction].
Qed.
Print Assumptions C89_flushed_partial.

(** Three federates in a ring: 0 leaves while the others run; then 1 fails and 2 leaves. *)
Definition ring (i k : nat) : bool := k =? (S i) mod 3.
Definition leaves (i : nat) : list op := [Main i; Main i; Main i; Hear 0 i; Hear 1 i; Hear 2 i; Main i; Main i; Main i; Main i; Hear i 0; Hear i 1; Hear i 2; Main i; HearRti i; Main i; Rti i].
Definition one_leaves : list op := [Terminate 0 true; Serve 1; Rti 0; Rti 0] ++ leaves 0.
Definition all_leave : list op := one_leaves ++ [Terminate 1 false; Rti 1; Rti 1] ++ leaves 1 ++ [Terminate 2 true; Rti 2; Rti 2] ++ leaves 2.
Example C89_within : Forall (within 3) all_leave.
Proof. repeat constructor. Qed.
Example C89_one : let s := run 3 ring (start ring) one_leaves in
  place_of s 0 = Exited /\ thread_of s 0 = RDone /\ normal s 0 = true /\ place_of s 1 = Running /\ ring 0 1 = true /\ hears s 1 0 = false /\ hears s 0 2 = false /\ out_open s 2 0 = true.
Proof. vm_compute. repeat split. Qed.
Example C89_all : let s := run 3 ring (start ring) all_leave in quiet 3 ring s /\ (forall i, i < 3 -> over s i) /\ actions 3 ring (start ring) all_leave = 40.
Proof.
  cbv zeta. split; [|split].
  - intros o W. destruct o as [i b|i|k i|i|i|i]; cbn [within] in W; try exact Logic.I.
    + destruct i as [|[|[|i]]]; [vm_compute; reflexivity..|lia].
    + destruct W as [W1 W2]. destruct k as [|[|[|k]]], i as [|[|[|i]]]; try lia; vm_compute; reflexivity.
    + destruct i as [|[|[|i]]]; [vm_compute; reflexivity..|lia].
    + destruct i as [|[|[|i]]]; [vm_compute; reflexivity..|lia].
  - intros i L. destruct i as [|[|[|i]]]; [vm_compute; split; reflexivity..|lia].
  - vm_compute. reflexivity.
Qed.

(** Refuted: the coordinator goes on serving the others while a federate leaves.  From the
    moment it has taken up the resignation it holds its mutex until that federate has
    exited; if the federate is slow, whatever else happens, nobody is served. *)
Theorem C89_deaf_refuted : forall n link l i l', Forall (within n) (l ++ l') ->
  let s := run n link (start link) l in
  thread_of s i = RHold -> place_of s i <> Exited -> ~ In (Main i) l' -> deaf n link (run n link s l').
Proof.
  intros n link l i l' F s T P NI. apply Forall_app in F as [F F'].
  assert (IV : Inv n s) by (apply inv_run; [apply inv_start|exact F]). assert (B : busy i s) by (split; [apply (i_mutex n s IV), T|split; assumption]).
  destruct (busy_run n link i l' s IV F' NI B) as (M & _ & _). intros j _. cbn [step]. rewrite M. destruct (thread_of _ j); reflexivity.
Qed.
Print Assumptions C89_deaf_refuted.
Example C89_deaf_inst : let s := run 3 ring (start ring) [Terminate 0 true; Rti 0; Rti 0; Main 0] in
  thread_of s 0 = RHold /\ place_of s 0 = Outs [0; 1; 2] /\ thread_of s 1 = RListen /\ thread_of s 2 = RListen.
Proof. vm_compute. repeat split. Qed.

(** Refuted: a message of unknown type disturbs only its receiver's connection.  The thread
    that reads it ends without closing the socket.  When the sender resigns later, it waits
    for the end of a connection that nobody reads, the coordinator waits for the sender, and
    until the receiver terminates by itself, nobody is served. *)
Theorem C89_bad_message_refuted : exists link l, Forall (within 3) l /\
  let s := run 3 link (bad_message 1 0 (start link)) l in
  forall l', ~ In (Main 1) l' -> let s' := run 3 link s l' in place_of s' 0 = Drain 1 [2] /\ deaf 3 link s' /\ (In (Terminate 1 true) l' \/ In (Terminate 1 false) l' \/ place_of s' 1 = Running).
Proof.
  exists ring, [Terminate 0 true; Rti 0; Rti 0; Main 0; Main 0; Main 0]. split; [repeat constructor|]. cbv zeta. intros l' NI.
  set (s := run 3 ring (bad_message 1 0 (start ring)) [Terminate 0 true; Rti 0; Rti 0; Main 0; Main 0; Main 0]).
  assert (K : Stuck 0 1 [2] s).
  { constructor; try (vm_compute; reflexivity). intros j. destruct j as [|j]; [vm_compute; split; reflexivity|]. split; [vm_compute|]; discriminate. }
  assert (R : place_of s 1 = Running) by (vm_compute; reflexivity). clearbody s.
  pose proof (stuck_run 3 ring 0 1 [2] ltac:(discriminate) l' s NI K) as K'. split; [apply K'|]. split.
  - intros j _. cbn [step]. rewrite (k_mutex _ _ _ _ K'). destruct (thread_of _ j); reflexivity.
  - clear K K'. revert s R NI. induction l' as [|o l' IH]; intros s R NI; cbn [run]; [tauto|]. cbn [In] in *.
    assert (G : forall s', place_of s' 1 = Running -> (o = Terminate 1 true \/ In (Terminate 1 true) l') \/ (o = Terminate 1 false \/ In (Terminate 1 false) l') \/ place_of (run 3 ring s' l') 1 = Running).
    { intros s' R'. destruct (IH s' R') as [|[|]]; tauto. }
    destruct (step 3 ring s o) as [s'|] eqn:E; [|apply G, R].
    assert (D : o = Terminate 1 true \/ o = Terminate 1 false \/ place_of s' 1 = Running); [|destruct D as [|[|D]]; [tauto|tauto|apply G, D]].
    destruct o as [i b|i|k i|i|i|i].
    + destruct (Nat.eq_dec 1 i) as [<-|ne]; [destruct b; tauto|]. right. right. cbn [step] in E. destruct (place_of s i); try discriminate. injection E as <-. cbn [place_of]. rewrite fupd_neq by exact ne. exact R.
    + right. right. assert (ne : 1 <> i) by (intros <-; tauto). cbn [step] in E. unfold main_step in E. cbv zeta in E. assert (X : forall p, fupd (place_of s) i p 1 = Running) by (intros p; rewrite fupd_neq by exact ne; exact R).
      destruct (place_of s i) as [| |[|y l0]|y l0| | |]; try discriminate; repeat (match type of E with context [if ?c then _ else _] => destruct c end; try discriminate); injection E as <-; apply X.
    + right. right. cbn [step] in E. destruct (_ && _); [|discriminate]. injection E as <-. exact R.
    + right. right. cbn [step] in E. destruct (_ && _); [|discriminate]. injection E as <-. exact R.
    + right. right. cbn [step] in E. cbv zeta in E. destruct (thread_of s i); try discriminate; repeat (match type of E with context [match ?c with _ => _ end] => destruct c end; try discriminate); injection E as <-; exact R.
    + right. right. apply serve_same in E. subst s'. exact R.
Qed.
Print Assumptions C89_bad_message_refuted.
