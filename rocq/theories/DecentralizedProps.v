(** Decentralized coordination (C78). *)
From Coq Require Import Permutation.
From Verif Require Import Base Tag TagSpec TagProofs RtiDelays Rti Federation Decentralized DecentralizedSpec DecentralizedProofs.
From Verif Require PortStatus PortStatusSpec.
Open Scope Z_scope.

(** ** C78.  If everything that arrives on an input arrives in time, then every message is executed at its own tag, none is
    flagged as tardy, no reaction of the level of the input or above has been started before it at that tag, and each message
    is executed at most once.  What is waiting in the event queue is there with its own tag.  Other inputs may be tardy.

    The full property asks only that messages be handled by the times in the documentation ([messages_on_time]).  That is not
    enough: see the findings below. *)
Theorem C78_in_time_partial : forall start sta staa index ports clock ops s p, config_ok start sta staa index ports -> clock < FOREVER - MIN_SLEEP ->
  drun start sta staa index (dinit start sta clock ports) ops = Some s -> all_in_time sta staa p s ->
  (forall x, In x (d_exec s) -> x_port x = p -> x_tag x = x_intended x /\ x_violation x = false /\ forall q, nth_error ports p = Some q -> x_level x < PortStatus.level q) /\
  (forall e t, In e (d_queue s) -> e_from e = Some (p, t) -> e_tag e = t) /\
  NoDup (executed_on p s).
Proof.
  intros start sta staa index ports clock ops s p Hcfg Hc E T.
  pose proof (G_init start sta staa index ports Hcfg clock) as G0.
  pose proof (P_run start sta staa index ports Hcfg p ops _ _ G0 (P_init start sta staa index ports Hcfg p clock Hc) T E) as HP.
  split; [|split].
  - intros x Hx Hp. destruct (P_exec _ _ _ _ _ HP x Hx Hp) as (A & B & C). split; [exact A|]. split; [exact B|]. intros q Eq.
    pose proof (g_strip _ _ _ _ _ (G_ps _ _ _ _ (G_run start sta staa index ports Hcfg ops _ _ G0 E))) as Gs.
    destruct (strip_nth _ _ _ _ Gs Eq) as (q' & Eq' & S'). destruct (strip_eq _ _ S') as (_ & L & _). rewrite <- L. now apply C.
  - intros e t He Ht. now apply (P_queue _ _ _ _ _ HP e t He Ht).
  - pose proof (U_run start sta staa index ports Hcfg ops _ _ G0 (U_init start sta ports clock) E) as HU.
    assert (K : Permutation (executed_on p s ++ pending_on p s) (arrived_on p s)) by (apply (kept_run start sta staa index p ops (dinit start sta clock ports) s (Permutation_refl _) E)).
    pose proof (Permutation_NoDup (Permutation_sym K) (U_once _ HU p)) as N. clear - N. revert N. induction (executed_on p s) as [|a l IH]; intros N; [constructor|]. inversion N as [|? ? N1 N2]; subst. constructor; [|now apply IH]. intros K. apply N1, in_or_app. now left.
Qed.
Print Assumptions C78_in_time_partial.

(** ** C78.  In time or not, every message that has arrived is executed or waiting to be executed, and only these are. *)
Theorem C78_kept : forall start sta staa index ports clock ops s p, drun start sta staa index (dinit start sta clock ports) ops = Some s ->
  Permutation (executed_on p s ++ pending_on p s) (arrived_on p s).
Proof. intros start sta staa index ports clock ops s p E. exact (kept_run start sta staa index p ops (dinit start sta clock ports) s (Permutation_refl _) E). Qed.
Print Assumptions C78_kept.

(** ** C78.  As long as microsteps do not run out, a message is flagged as tardy if and only if it is executed after its tag;
    no message is executed before its tag. *)
Theorem C78_flag : forall start sta staa index ports clock ops s x, config_ok start sta staa index ports -> Z.of_nat (length ops) < UINT_MAX ->
  Forall (op_room (Z.of_nat (length ops))) ops -> drun start sta staa index (dinit start sta clock ports) ops = Some s -> In x (d_exec s) ->
  (x_violation x = true <-> tag_lt (x_intended x) (x_tag x)) /\ (x_violation x = false <-> x_tag x = x_intended x).
Proof.
  intros start sta staa index ports clock ops s x Hcfg Hn Ho E Hx.
  pose proof (F_run start sta staa index ports Hcfg ops _ _ (G_init start sta staa index ports Hcfg clock) (F_init start sta ports clock _ Hn) Ho E) as HF.
  destruct (F_exec _ _ HF x Hx) as [A B]. rewrite A. split; [apply ltb_spec|]. rewrite ltb_false. split.
  - intros L. now apply tag_le_antisym.
  - intros ->. apply tag_le_refl.
Qed.
Print Assumptions C78_flag.

(** ** C78.  Tardy messages or not, the federate is never stuck: when the offsets of the inputs have expired, assuming
    inputs absent that have not been seen lets all reactions at the current tag go ahead. *)
Theorem C78_unblocks : forall start sta staa index ports clock ops s, config_ok start sta staa index ports -> Z.of_nat (length ops) < UINT_MAX ->
  Forall (op_room (Z.of_nat (length ops))) ops -> drun start sta staa index (dinit start sta clock ports) ops = Some s ->
  d_phase s = Running -> all_expired sta staa s ->
  exists l s', drun start sta staa index s (map DAssume l) = Some s' /\ unblocked s' /\ cur s' = cur s.
Proof.
  intros start sta staa index ports clock ops s Hcfg Hn Ho E Ph Ex.
  pose proof (G_init start sta staa index ports Hcfg clock) as G0. pose proof (G_run start sta staa index ports Hcfg ops _ _ G0 E) as HG.
  pose proof (V_run start sta staa index ports Hcfg ops _ _ G0 (U_init start sta ports clock) (F_init start sta ports clock _ Hn) (V_init start sta staa index ports Hcfg clock _) Ho E) as HV.
  apply (unblock start sta staa index ports Hcfg (length (behind s)) s (le_n _) HG Ph); [|exact Ex]. exact (V_seen _ _ _ HV Ph).
Qed.
Print Assumptions C78_unblocks.

(** ** A federate with two inputs. *)
Definition in_port (delay : Z) (s : nat) : PortStatus.port := PortStatus.mkPort NEVER_TAG false 1 delay false s.
Definition ex_start : Z := 1000000.
Definition ex_sta : Z := 100000.
Definition ex_staa (p : nat) : Z := match p with 0%nat => 0 | _ => 200000 end.
Definition ex_index (p : nat) : Z := 1.
Definition ex_ports : list PortStatus.port := [in_port NEVER 1; in_port 50000 2].
Definition at_ (t m : Z) : tag := mkTag (ex_start + t) m.
Definition ex_from (ports : list PortStatus.port) (ops : list op) : option dfed :=
  drun ex_start ex_sta ex_staa ex_index (dinit ex_start ex_sta 900000 ports) ops.
Ltac config := split; [vm_compute; discriminate|]; split; [vm_compute; discriminate|]; split; [reflexivity|]; split;
  [intros [|p]; vm_compute; intuition discriminate|]; intros [|[|[|p]]] q Eq; try discriminate Eq; injection Eq as <-; vm_compute; intuition discriminate.
Example C78_config : config_ok ex_start ex_sta ex_staa ex_index ex_ports.
Proof. config. Qed.

(** Messages that arrive before the start, while the federate waits to advance (the payload later than the header), and while
    it executes their tag; and an absence. *)
Definition ex_ops : list op :=
  [DLocal (at_ 0 0); DHeader 0 (at_ 200000 0); DMsg 0; DTick 95000; DStart; DStarted; DEnter 0; DTick 255000; DHeader 1 (at_ 200000 0);
   DTick 70000; DMsg 1; DNext; DAdvance; DEnter 5; DTick 80000; DHeader 0 (at_ 400000 0); DMsg 0; DTick 95000; DNext; DAdvance;
   DTick 10000; DEnter 0; DHeader 1 (at_ 400000 0); DTick 30000; DMsg 1; DEnter 5; DAbsent 0 (at_ 500000 0)].
Example C78_in_time_nonvacuous : exists s, ex_from ex_ports ex_ops = Some s /\ all_in_time ex_sta ex_staa 0 s /\ all_in_time ex_sta ex_staa 1 s /\
  executed_on 0 s = [at_ 400000 0; at_ 200000 0] /\ executed_on 1 s = [at_ 400000 0; at_ 200000 0].
Proof.
  eexists. split; [vm_compute; reflexivity|]. split; [|split; [|split; reflexivity]].
  all: intros a Ha Hp; cbn [d_arrived In] in Ha; repeat (destruct Ha as [<-|Ha]; [cbn in Hp; try discriminate Hp; vm_compute; intuition discriminate|]); destruct Ha.
Qed.
(** Tardy messages, and a federate that is blocked at its current tag until its inputs are assumed absent. *)
Definition ex_tardy : list op :=
  [DTick 200000; DStart; DStarted; DAssume 0; DEnter 5; DLocal (at_ 300000 0); DTick 300000; DNext; DAdvance;
   DHeader 0 (at_ 98000 0); DMsg 0; DTick 200000; DAssume 1; DNext; DAdvance].
Example C78_flag_nonvacuous : exists s, ex_from ex_ports ex_tardy = Some s /\ d_exec s = [mkExec 0 (at_ 98000 0) (at_ 300000 1) (-1) true] /\
  Forall (op_room (Z.of_nat (length ex_tardy))) ex_tardy.
Proof. eexists. split; [vm_compute; reflexivity|]. split; [reflexivity|]. unfold ex_tardy. repeat constructor. Qed.
Example C78_unblocks_nonvacuous : exists s, ex_from ex_ports ex_tardy = Some s /\ d_phase s = Running /\ all_expired ex_sta ex_staa s /\ ~ unblocked s.
Proof.
  eexists. split; [vm_compute; reflexivity|]. split; [reflexivity|]. split; [|vm_compute; discriminate].
  intros [|[|p]] q Eq _; [| |cbn in Eq; destruct p; discriminate Eq]; (eexists; split; [vm_compute; reflexivity|vm_compute; discriminate]).
Qed.

(** ** Findings *)
(** A message that arrives by the time of its tag plus the STA offset is tardy: the federate has advanced up to 10 microseconds
    earlier. *)
Definition ex_sleep : list op :=
  [DTick 200000; DStart; DStarted; DAssume 0; DEnter 5; DLocal (at_ 300000 0); DTick 291000; DNext; DAdvance; DTick 4000;
   DHeader 0 (at_ 295000 0); DMsg 0; DAssume 0; DTick 5000; DNext; DAdvance].
(** A message with the start tag that is handled between the start time and the start of the execution makes the input known
    at microstep 1 as well; a message for that microstep is then tardy although it arrives long before its time. *)
Definition ex_startup : list op :=
  [DLocal (at_ 0 1); DTick 95000; DStart; DHeader 0 (at_ 0 0); DMsg 0; DStarted; DTick 6000; DNext; DAdvance; DTick 40000;
   DHeader 0 (at_ 0 1); DMsg 0; DTick 100000; DNext; DAdvance].
(** An absence that comes late, for a tag before the current one, makes the input known at the current tag; a message at the
    current tag that arrives within the STAA offset is then tardy. *)
Definition ex_absence : list op :=
  [DTick 200000; DStart; DStarted; DAssume 0; DEnter 5; DLocal (at_ 300000 0); DTick 300000; DNext; DAdvance; DAbsent 1 (at_ 200000 0);
   DTick 50000; DHeader 1 (at_ 300000 0); DMsg 1; DAssume 0; DNext; DAdvance].
Ltac witness ops := exists ex_start, ex_sta, ex_staa, ex_index, 900000, ops; eexists; split; [config|]; split; [reflexivity|]; split; [vm_compute; reflexivity|]; split;
  [let a := fresh "a" in let Ha := fresh "Ha" in let Hp := fresh "Hp" in intros a Ha Hp; cbn [d_arrived In] in Ha; repeat (destruct Ha as [<-|Ha]; [cbn in Hp; try discriminate Hp; vm_compute; intuition discriminate|]); destruct Ha|];
  split; [cbn [d_exec In]; auto|]; split; [reflexivity|]; split; [vm_compute; auto|reflexivity].
Theorem C78_min_sleep_refuted : tardy_on_time [in_port NEVER 1] 0 (mkExec 0 (at_ 295000 0) (at_ 300000 1) (-1) true).
Proof. witness ex_sleep. Qed.
Print Assumptions C78_min_sleep_refuted.
Theorem C78_startup_refuted : tardy_on_time [in_port NEVER 1] 0 (mkExec 0 (at_ 0 1) (at_ 0 2) (-1) true).
Proof. witness ex_startup. Qed.
Print Assumptions C78_startup_refuted.
Theorem C78_absence_refuted : tardy_on_time ex_ports 1 (mkExec 1 (at_ 300000 0) (at_ 300000 1) (-1) true).
Proof. witness ex_absence. Qed.
Print Assumptions C78_absence_refuted.

(** Two messages of one input can be executed at the same tag, so that the second overwrites the value of the first: two tardy
    messages take the next two microsteps, and one that is in time for the first of them is put off by one. *)
Definition ex_lost : list op :=
  [DTick 200000; DStart; DStarted; DAssume 0; DEnter 5; DLocal (at_ 300000 0); DTick 300000; DNext; DAdvance;
   DHeader 0 (at_ 98000 0); DMsg 0; DHeader 0 (at_ 99000 0); DMsg 0; DHeader 0 (at_ 300000 1); DMsg 0; DTick 200000; DAssume 0; DAssume 1;
   DNext; DAdvance; DAssume 1; DNext; DAdvance].
Theorem C78_lost_refuted : exists start sta staa index ports clock ops s x y, config_ok start sta staa index ports /\
  drun start sta staa index (dinit start sta clock ports) ops = Some s /\ In x (d_exec s) /\ In y (d_exec s) /\
  x_port x = x_port y /\ x_tag x = x_tag y /\ x_intended x <> x_intended y.
Proof.
  exists ex_start, ex_sta, ex_staa, ex_index, ex_ports, 900000, ex_lost. eexists. exists (mkExec 0 (at_ 300000 1) (at_ 300000 2) (-1) true), (mkExec 0 (at_ 99000 0) (at_ 300000 2) (-1) true).
  split; [config|]. split; [vm_compute; reflexivity|]. split; [cbn [d_exec In]; auto|]. split; [cbn [d_exec In]; auto|]. split; [reflexivity|]. split; [reflexivity|]. discriminate.
Qed.
Print Assumptions C78_lost_refuted.
