(** C79: tardiness handlers. *)
From Verif Require Import Base Tardy TardySpec TardyProofs.
From Verif Require Import Pqueue.

(** ** An example: a message for a receiver reaction (0) that leads to reaction 1, which is executed at once, to reaction 2,
    which has a handler, and to reaction 3, which has one, too. *)
Definition ex_prog : prog :=
  mkProg (fun r => (2 <=? r)%nat) (fun _ => false) (fun r => (r =? 0)%nat) (fun r => if (r =? 1)%nat then Some 0%nat else None) (fun _ => 1%nat)
         (fun r o => if (r <? 3)%nat && (o =? 0)%nat then [S r] else []) (fun _ _ _ => [0%nat]) (fun _ _ => false).
Definition ex_ops : list op := [TPop 0 false; TRun 0; TRun 2; TRun 3; TNext; TPop 0 true; TRun 0; TRun 2; TRun 3].
Definition ex_log : list entry :=
  [ERun 3 Body false; ETrig 2 Stp 3; ERun 2 Stp true; ETrig 1 Body 2; ERun 1 Body true; ETrig 0 Body 1; ERun 0 Body true; EMsg 0 true].
Lemma ex_run : exists s, trun ex_prog 4 tinit ex_ops = Some s /\ t_log s = ex_log.
Proof. eexists. split; vm_compute; reflexivity. Qed.
Lemma ex_once : executed_once ex_log.
Proof. unfold executed_once. cbn. repeat constructor; cbn; intuition discriminate. Qed.
Lemma ex_source : one_source ex_log.
Proof.
  repeat split.
  - intros r b b' K K'. cbn in K, K'. intuition congruence.
  - intros r b u c K K'. cbn in K, K'. intuition congruence.
  - intros u c u' c' d K K'. cbn in K, K'. intuition congruence.
Qed.
Lemma ex_queued : handlers_queued ex_prog.
Proof. intros r H. cbn in H |- *. destruct (Nat.eqb_spec r 1) as [->|n]; [discriminate|reflexivity]. Qed.
Lemma ex_missed : no_missed_deadlines ex_prog.
Proof. intros k r. reflexivity. Qed.

(** ** Full statement: at every tag, the tardiness handler of a reaction is invoked exactly if the reaction has one and a tardy
    message has led to it that no handler has dealt with on the way, and the reaction itself is invoked exactly otherwise.
    This is proved for programs without missed deadlines whose reactions with handlers always go through the queue, at tags at
    which every reaction is triggered by one other reaction, or by messages of one kind, and is executed once. *)
Theorem C79_handler_partial : forall g n ops s r c f, no_missed_deadlines g -> handlers_queued g ->
  trun g n tinit ops = Some s -> executed_once (t_log s) -> one_source (t_log s) ->
  In (ERun r c f) (t_log s) -> (f = true <-> tardy (t_log s) r) /\
    (c = Stp <-> tardy (t_log s) r /\ handler g r = true /\ receiver g r = false) /\ c <> Late.
Proof.
  intros g n ops s r c f Hm Hq E O1 O2 K.
  pose proof (C_run_ops g Hm Hq n ops tinit s (R_init g) (fun _ => C_init g) E (conj O1 O2)) as HC.
  destruct (C_run g _ _ _ HC r c f K) as (A & B & D). split; [exact A|]. split; [|exact D]. rewrite B, A. tauto.
Qed.
Print Assumptions C79_handler_partial.
Example C79_handler_nonvacuous : exists s, trun ex_prog 4 tinit ex_ops = Some s /\ no_missed_deadlines ex_prog /\ handlers_queued ex_prog /\
  executed_once (t_log s) /\ one_source (t_log s) /\ In (ERun 2 Stp true) (t_log s) /\ In (ERun 3 Body false) (t_log s) /\ tardy (t_log s) 2 /\ ~ tardy (t_log s) 3.
Proof.
  destruct ex_run as (s & E & L). exists s. split; [exact E|]. rewrite L.
  split; [exact ex_missed|]. split; [exact ex_queued|]. split; [exact ex_once|]. split; [exact ex_source|].
  split; [cbn; auto|]. split; [cbn; auto|].
  assert (T : tardy ex_log 2).
  { apply (tardy_by _ 1 Body); [cbn; auto 10|discriminate|]. apply (tardy_by _ 0 Body); [cbn; auto 10|discriminate|]. apply tardy_msg. cbn. auto 10. }
  split; [exact T|]. intros K. inversion K as [x K1|u c x K1 Hc K2]; subst; cbn in K1; intuition congruence.
Qed.

(** ** No false alarms: without missed deadlines, a flag is set only if a tardy message at the same tag has led to the reaction,
    the handler is invoked only then, and every tag starts without flags. *)
Theorem C79_no_false_alarm_partial : forall g n ops s, no_missed_deadlines g -> trun g n tinit ops = Some s ->
  (forall r c f, In (ERun r c f) (t_log s) -> (f = true -> reached (t_log s) r) /\ (c = Stp -> reached (t_log s) r /\ handler g r = true)) /\
  (t_log s = [] -> forall r, t_flag s r = false).
Proof.
  intros g n ops s Hm E. pose proof (R_run_ops g Hm n ops tinit s (R_init g) E) as [A B D]. split.
  - intros r c f K. destruct (D r c f K) as [D1 D2]. split; [exact D1|]. intros Hc. destruct (D2 Hc) as [F H]. auto.
  - intros L r. apply not_true_is_false. intros K. pose proof (A r K) as X. rewrite L in X. destruct X as [x []|u c x [] _].
Qed.
Print Assumptions C79_no_false_alarm_partial.
Example C79_no_false_alarm_nonvacuous : exists s, no_missed_deadlines ex_prog /\ trun ex_prog 4 tinit ex_ops = Some s /\ In (ERun 2 Stp true) (t_log s).
Proof. destruct ex_run as (s & E & L). exists s. split; [exact ex_missed|]. split; [exact E|]. rewrite L. cbn. auto. Qed.

(** ** What is triggered: every output that an invocation sets triggers its reactions on behalf of that invocation, nothing else
    does, and what has been triggered, by outputs or messages, is executed at the same tag, unless it misses its deadline and has
    no handler for that. *)
Theorem C79_passed_on : forall g n ops s, trun g n tinit ops = Some s ->
  (forall u c f o d, In (ERun u c f) (t_log s) -> In o (sets g (t_tag s) u c) -> (o < outputs g u)%nat -> In d (reacts g u o) -> In (ETrig u c d) (t_log s)) /\
  (forall u c d, In (ETrig u c d) (t_log s) -> (exists f, In (ERun u c f) (t_log s)) /\
     exists o c' f, (o < outputs g u)%nat /\ In (ERun u c' f) (t_log s) /\ In o (sets g (t_tag s) u c') /\ In d (reacts g u o)).
Proof.
  intros g n ops s E. pose proof (W_run_ops g n ops tinit s (W_init g) E) as [A B D F]. split.
  - intros u c f o d H1 H2 H3 H4. destruct (D u c f o d H1 H2 H3 H4) as [[]|K]; exact K.
  - intros u c d K. destruct (B u c d K) as (K1 & o & K2 & K3 & K4). split; [exact K1|]. apply A in K3. destruct K3 as (c' & f & K5 & K6). exists o, c', f. auto.
Qed.
Print Assumptions C79_passed_on.
Theorem C79_executed : forall g n ops s d, trun g n tinit ops = Some s -> t_queue s = [] ->
  (exists b, In (EMsg d b) (t_log s)) \/ (exists u c, In (ETrig u c d) (t_log s)) ->
  (exists c f, In (ERun d c f) (t_log s)) \/ missed g (t_tag s) d = true /\ late_handler g d = false.
Proof.
  intros g n ops s d E Q K. pose proof (W_run_ops g n ops tinit s (W_init g) E) as [_ _ _ F]. destruct (F d K) as [K1|[K1|[K1|K1]]]; [rewrite Q in K1; destruct K1| |discriminate|now right].
  left. now apply runs_in.
Qed.
Print Assumptions C79_executed.
Example C79_executed_nonvacuous : exists s, trun ex_prog 4 tinit ex_ops = Some s /\ t_queue s = [] /\ In (ETrig 1 Body 2) (t_log s) /\ In (ERun 1 Body true) (t_log s) /\ In 0%nat (sets ex_prog (t_tag s) 1 Body).
Proof. eexists. split; [vm_compute; reflexivity|]. cbn. auto 10. Qed.

(** ** The execution of reactions without going through the queue ends, if reactions depend on each other without cycles. *)
Theorem C79_ends : forall g N s r, acyclic g -> (forall u o d, In d (reacts g u o) -> (d < N)%nat) -> (r < N)%nat -> In r (t_queue s) ->
  exists s', tstep g N s (TRun r) = Some s'.
Proof.
  intros g N s r Ha HN Hr Q. cbn [tstep]. replace (mem r (t_queue s)) with true by (symmetry; now apply mem_In).
  assert (Go : forall s c, exists s', schedule g N s r c = Some s') by (intros; apply (schedule_ends g Ha N HN); lia).
  assert (W : exists s1, work g N s r = Some s1).
  { unfold work. destruct (missed g (t_tag s) r).
    - destruct (late_handler g r); [apply Go|eauto].
    - destruct (t_flag s r && negb (receiver g r) && handler g r).
      + destruct (Go (set_flag (invoke g s r Stp (t_flag s r)) r false) Stp) as (s1 & ->). eauto.
      + destruct (Go (invoke g s r Body (t_flag s r)) Body) as (s1 & ->). eauto. }
  destruct W as (s1 & ->). eauto.
Qed.
Print Assumptions C79_ends.
Example C79_ends_nonvacuous : acyclic ex_prog /\ (forall u o d, In d (reacts ex_prog u o) -> (d < 4)%nat) /\ exists s, trun ex_prog 4 tinit [TPop 0 true] = Some s /\ In 0%nat (t_queue s).
Proof.
  split; [|split].
  - intros r o d. unfold ex_prog, reacts. destruct ((r <? 3)%nat && (o =? 0)%nat); [intros [<-|[]]; lia|intros []].
  - intros r o d. unfold ex_prog, reacts. destruct (Nat.ltb_spec r 3) as [l|l]; cbn [andb]; [|intros []]. destruct (o =? 0)%nat; [intros [<-|[]]; lia|intros []].
  - eexists. split; [vm_compute; reflexivity|now left].
Qed.

(** ** What is false *)

(** A reaction with two upstream reactions loses its flag: a tardy message leads to it by way of reaction 0, and then an
    in-time one by way of reaction 1.  Its handler is not invoked. *)
Definition two_prog : prog :=
  mkProg (fun r => (r =? 2)%nat) (fun _ => false) (fun r => (r <? 2)%nat) (fun _ => None) (fun _ => 1%nat)
         (fun r o => if (r <? 2)%nat && (o =? 0)%nat then [2%nat] else []) (fun _ _ _ => [0%nat]) (fun _ _ => false).
Theorem C79_overwritten_refuted : exists g n ops s r, no_missed_deadlines g /\ handlers_queued g /\ trun g n tinit ops = Some s /\ executed_once (t_log s) /\
  tardy (t_log s) r /\ handler g r = true /\ receiver g r = false /\ In (ERun r Body false) (t_log s).
Proof.
  exists two_prog, 3%nat, [TPop 0 true; TPop 1 false; TRun 0; TRun 1; TRun 2]. eexists. exists 2%nat.
  split; [intros k r; reflexivity|]. split; [intros r _; reflexivity|]. split; [vm_compute; reflexivity|]. cbn [t_log].
  split; [unfold executed_once; cbn; repeat constructor; cbn; intuition discriminate|].
  split; [apply (tardy_by _ 0 Body); [cbn; auto 10|discriminate|apply tardy_msg; cbn; auto 10]|]. split; [reflexivity|]. split; [reflexivity|]. cbn. auto.
Qed.
Print Assumptions C79_overwritten_refuted.

(** If the reaction with the handler is executed at once, then the handler passes the flag on: the handler of the next reaction
    is invoked as well, although the violation has been dealt with. *)
Definition inline_prog : prog :=
  mkProg (fun r => (1 <=? r)%nat) (fun _ => false) (fun r => (r =? 0)%nat) (fun r => if (r =? 1)%nat then Some 0%nat else None) (fun _ => 1%nat)
         (fun r o => if (r <? 2)%nat && (o =? 0)%nat then [S r] else []) (fun _ _ _ => [0%nat]) (fun _ _ => false).
Theorem C79_inline_refuted : exists g n ops s r, no_missed_deadlines g /\ trun g n tinit ops = Some s /\ executed_once (t_log s) /\ one_source (t_log s) /\
  ~ tardy (t_log s) r /\ In (ERun r Stp true) (t_log s).
Proof.
  exists inline_prog, 3%nat, [TPop 0 true; TRun 0; TRun 2]. eexists. exists 2%nat.
  split; [intros k r; reflexivity|]. split; [vm_compute; reflexivity|]. cbn [t_log].
  split; [unfold executed_once; cbn; repeat constructor; cbn; intuition discriminate|].
  split; [repeat split; [intros r b b' K K'|intros r b u c K K'|intros u c u' c' d K K']; cbn in K, K'; intuition congruence|].
  split; [|cbn; auto]. intros K. inversion K as [x K1|u c x K1 Hc K2]; subst; cbn in K1; intuition congruence.
Qed.
Print Assumptions C79_inline_refuted.

(** If a reaction is tardy and misses its deadline, then its tardiness handler is not invoked and the flag remains: the handler
    is invoked at the next tag, where no message is tardy. *)
Definition late_prog : prog :=
  mkProg (fun r => (r =? 0)%nat) (fun _ => true) (fun _ => false) (fun _ => None) (fun _ => 0%nat) (fun _ _ => []) (fun _ _ _ => []) (fun k r => (k =? 0)%nat && (r =? 0)%nat).
Theorem C79_stale_refuted : exists g n ops s s' r, trun g n tinit ops = Some s /\ tardy (t_log s) r /\ handler g r = true /\ receiver g r = false /\
  (forall f, ~ In (ERun r Stp f) (t_log s)) /\ trun g n s [TNext; TPop r false; TRun r] = Some s' /\
  In (ERun r Stp true) (t_log s') /\ forall x, ~ reached (t_log s') x.
Proof.
  exists late_prog, 1%nat, [TPop 0 true; TRun 0]. eexists. eexists. exists 0%nat.
  split; [vm_compute; reflexivity|]. cbn [t_log]. split; [apply tardy_msg; cbn; auto|]. split; [reflexivity|]. split; [reflexivity|].
  split; [intros f K; cbn in K; intuition congruence|]. split; [vm_compute; reflexivity|]. cbn [t_log]. split; [cbn; auto|].
  intros x K. induction K as [x K|u c d K _ _]; cbn in K; intuition congruence.
Qed.
Print Assumptions C79_stale_refuted.

(** If a reaction that is executed at once is tardy and misses its deadline, then both handlers are invoked, and what the first
    has set triggers reactions a second time: reaction 2 is executed twice at one tag. *)
Definition twice_prog : prog :=
  mkProg (fun r => (r =? 1)%nat) (fun r => (r =? 1)%nat) (fun r => (r =? 0)%nat) (fun r => match r with 1 => Some 0 | 2 => Some 1 | _ => None end%nat) (fun _ => 1%nat)
         (fun r o => if (r <? 2)%nat && (o =? 0)%nat then [S r] else []) (fun _ r c => match r, c with 0%nat, _ => [0%nat] | 1%nat, Stp => [0%nat] | _, _ => [] end) (fun k r => (r =? 1)%nat).
Theorem C79_twice_refuted : exists g n ops s r, trun g n tinit ops = Some s /\ one_source (t_log s) /\
  count_occ Nat.eq_dec (runs (t_log s)) r = 2%nat /\ handler g r = false /\ missed g (t_tag s) r = false.
Proof.
  exists twice_prog, 4%nat, [TPop 0 true; TRun 0]. eexists. exists 2%nat. split; [vm_compute; reflexivity|]. cbn [t_log].
  split; [repeat split; [intros r b b' K K'|intros r b u c K K'|intros u c u' c' d K K']; cbn in K, K'; intuition congruence|].
  split; [reflexivity|]. split; reflexivity.
Qed.
Print Assumptions C79_twice_refuted.
