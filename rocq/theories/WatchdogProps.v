(** C36: a watchdog's handler runs exactly when the latest requested expiration has passed
    without a stop or a restart; a restart is never lost. *)
From Verif Require Import Base Tag Watchdog WatchdogSpec WatchdogProofs.

(** Whenever the handler is invoked, the latest request has expired.  This holds for all
    interleavings, spurious wake-ups included. *)
Theorem C36_only_expired t s es1 e u es2 :
  exec proper (init t) s (es1 ++ Fired e u :: es2) -> request es1 = Some e /\ e <= u.
Proof. intros X. exact (s_fires _ _ (exec_safe _ _ _ X) es1 e u es2 eq_refl). Qed.
Print Assumptions C36_only_expired.

(** As soon as the clock has reached the requested expiration, the thread can run, and then
    it invokes the handler. *)
Theorem C36_never_lost_partial t s es e :
  exec feeding (init t) s es -> request es = Some e -> e <= now s ->
  exists s', step s Thread = Done s' [Fired e (now s)] /\ thr s' = Handler.
Proof.
  intros X R L. destruct (exec_live _ _ _ X) as [A N W O Z].
  assert (thr s <> Handler) as Nh. { intros E. unfold waits in W. rewrite E in W. congruence. }
  assert (terminate s = false) as T. { destruct (terminate s); [|reflexivity]. assert (over es) as K by now apply O. rewrite (Z K) in R. discriminate. }
  specialize (A Nh). rewrite R in A.
  assert (expiration s =? NEVER = false) as Q by (apply Z.eqb_neq; congruence).
  assert (loop s = (mkState (expiration s) true (terminate s) Handler (now s), [Fired e (now s)]) /\ wait s = (mkState (expiration s) true (terminate s) Handler (now s), [Fired e (now s)])) as (E1 & E2).
  { unfold loop, wait. rewrite T, Q. replace (now s <? expiration s) with false by (symmetry; apply Z.ltb_ge; lia). cbn. now rewrite A. }
  exists (mkState (expiration s) true (terminate s) Handler (now s)). split; [|reflexivity].
  unfold waits in W. cbn [step]. destruct (thr s) as [|b|d b| |].
  - now rewrite E1.
  - destruct W as (_ & W). rewrite W by (left; congruence). now rewrite E1.
  - destruct W as (_ & [->|(e' & W1 & W2)]); [now rewrite E2|]. replace (b || (d <=? now s)) with true; [now rewrite E2|]. symmetry. apply orb_true_iff. right. apply Z.leb_le. congruence || (assert (e' = e) by congruence; lia).
  - easy.
  - congruence.
Qed.
Print Assumptions C36_never_lost_partial.

(** After termination the thread can end, and does so when it runs. *)
Theorem C36_terminates t s es :
  exec feeding (init t) s es -> over es -> thr s = Dead \/ thr s = Handler \/ exists s', step s Thread = Done s' [] /\ thr s' = Dead.
Proof.
  intros X Ov. destruct (exec_live _ _ _ X) as [A N W O Z]. assert (terminate s = true) as T by now apply O. pose proof (Z Ov) as R.
  assert (loop s = (mkState (expiration s) false (terminate s) Dead (now s), []) /\ wait s = (mkState (expiration s) false (terminate s) Dead (now s), [])) as (E1 & E2).
  { unfold loop, wait. rewrite T. cbn [negb]. now rewrite andb_false_r. }
  unfold waits in W. destruct (thr s) as [|b|d b| |] eqn:Th; auto; right; right; exists (mkState (expiration s) false (terminate s) Dead (now s)); split; auto; cbn [step]; rewrite Th.
  - now rewrite E1.
  - destruct W as (_ & W). rewrite W by now right. now rewrite E1.
  - destruct W as (_ & [->|(e' & W1 & W2)]); [now rewrite E2|congruence].
Qed.
Print Assumptions C36_terminates.

(** ** Executions *)
Fixpoint run (s : state) (es : list event) (l : list op) : option (state * list event) :=
  match l with
  | [] => Some (s, es)
  | o :: l => match step s o with Done s' es' => run s' (es ++ es') l | _ => None end
  end.
Inductive all_allowed (allowed : list event -> op -> Prop) : state -> list event -> list op -> Prop :=
| all_nil s es : all_allowed allowed s es []
| all_cons s es o l s' es' : allowed es o -> step s o = Done s' es' -> all_allowed allowed s' (es ++ es') l -> all_allowed allowed s es (o :: l).
Lemma run_exec allowed s0 l : forall s es s' es', exec allowed s0 s es -> all_allowed allowed s es l -> run s es l = Some (s', es') -> exec allowed s0 s' es'.
Proof.
  induction l as [|o l IH]; cbn; intros s es s' es' X A H; [injection H as <- <-; exact X|].
  inversion A as [|? ? ? ? s1 e1 A1 A2 A3]; subst. rewrite A2 in H. eapply IH; [|exact A3|exact H]. eapply exec_step; eassumption.
Qed.
Ltac all_steps := repeat (apply all_nil || (eapply all_cons; [|vm_compute; reflexivity|])); vm_compute; repeat split; try discriminate; auto.

(** The watchdog is fed once, then expires. *)
Definition ops1 : list op := [Thread; Start 100 10 0; Thread; Tick 105; Start 105 10 0; Tick 112; Thread; Tick 115; Thread; HandlerEnds].
Example C36_ex : exists s, exec feeding (init 100) s [Started 110; Started 115; Fired 115 115; HandlerDone].
Proof.
  eexists. eapply (run_exec feeding (init 100) ops1); [apply exec_start| |vm_compute; reflexivity].
  unfold ops1. all_steps. all: intros [|[]]; discriminate.
Qed.
Example C36_ex2 : exists s, exec feeding (init 100) s [Started 110] /\ request [Started 110] = Some 110 /\ 110 <= now s.
Proof.
  eexists. split; [|split; [reflexivity|]].
  - eapply (run_exec feeding (init 100) [Thread; Start 100 10 0; Thread; Tick 200]); [apply exec_start| |vm_compute; reflexivity]. all_steps. 
  - vm_compute. discriminate.
Qed.

(** A start in the handler is lost: line 128 overwrites its expiration. *)
Definition ops2 : list op := [Thread; Start 100 10 0; Thread; Tick 110; Thread; HandlerStart 110 10 0; HandlerEnds; Tick 1000].
Theorem C36_handler_refuted : exists s es,
  exec proper (init 100) s es /\ request es = Some 120 /\ 120 <= now s /\ thr s = CondWait false /\ expiration s = NEVER /\ step s Thread = Blocked.
Proof.
  eexists. eexists. split; [eapply (run_exec proper (init 100) ops2); [apply exec_start| |vm_compute; reflexivity]; unfold ops2; all_steps|].
  repeat split. vm_compute. discriminate.
Qed.
Print Assumptions C36_handler_refuted.

(** A restart with an earlier expiration does not wake up the thread, because the watchdog
    is active: the handler is not invoked before the earlier request expires. *)
Definition ops3 : list op := [Thread; Start 100 10 1000; Thread; Start 105 10 0; Tick 1000].
Theorem C36_earlier_refuted : exists s es,
  exec proper (init 100) s es /\ request es = Some 115 /\ 115 <= now s /\ thr s = TimedWait 1110 false /\ step s Thread = Blocked.
Proof.
  eexists. eexists. split; [eapply (run_exec proper (init 100) ops3); [apply exec_start| |vm_compute; reflexivity]; unfold ops3; all_steps|].
  repeat split. vm_compute. discriminate.
Qed.
Print Assumptions C36_earlier_refuted.

(** A start after the termination was requested, for example by the handler of another
    watchdog of the reactor, cancels it (line 145): _lf_watchdog_terminate_all, which joins
    the thread, does not return. *)
Definition ops4 : list op := [Thread; Terminate; Start 100 10 0; Thread; Tick 110; Thread; HandlerEnds].
Theorem C36_terminates_refuted : exists s es,
  exec proper (init 100) s es /\ over es /\ thr s = CondWait false /\ step s Thread = Blocked.
Proof.
  eexists. eexists. split; [eapply (run_exec proper (init 100) ops4); [apply exec_start| |vm_compute; reflexivity]; unfold ops4; all_steps|].
  repeat split. now left.
Qed.
Print Assumptions C36_terminates_refuted.
