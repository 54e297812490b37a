(** C83: when a program terminates, the memory that the runtime allocated is released,
    every block once and none while it is still used. *)
From Verif Require Import Base Memory MemorySpec MemoryProofs.
From Coq Require Import Permutation.
Local Open Scope nat_scope.

(** A single-threaded environment, and environments with each of the schedulers. *)
Definition single : config := mkConfig true 2 1 1 0 3 0 None true 2 1 false.
Definition threads (w : nat) (s : scheduler) (n : nat) : config := mkConfig true 1 1 0 1 2 w (Some (s, n)) false 0 0 true.
Definition empty_heap : heap := mkHeap 0 [].
Definition ops : list op :=
  [NewReactor true 1; NewReactor false 1; Allocate 0; NewReactor true 0; Allocate 1; NewEvent 0; NewEvent 0; HandleEvent 0;
   Suspend 0; Resume 0; Suspend 0; NewEvent 1; Allocate 0].

(** What is live at the end is what was live before and the blocks in the table
    [leaked]; nothing is freed twice or used after it was freed.  Partial: with two
    watchdogs in a reactor ([C83_double_free_refuted]) or without reactions
    ([C83_no_reactions_refuted]) the termination is undefined, and the table is not
    empty. *)
Theorem C83_exact_partial : forall modal threaded envs os h0,
  wf h0 -> Forall startable envs -> Forall one_watchdog os ->
  (modal = true \/ Forall no_suspension os) -> (threaded = true \/ Forall no_watchdog os) ->
  exists h leak, life modal threaded envs os h0 = Ok (tt, h) /\ Permutation (live h) (leak ++ live h0) /\
    (forall k, k <> KEvent -> count k leak = leaked envs os k) /\ count KEvent leak <= count_if new_event os /\
    (Forall no_suspension os -> count KEvent leak = peaks (List.length envs) os).
Proof. exact life_exact. Qed.
Print Assumptions C83_exact_partial.
Example C83_exact_nonvacuous :
  let envs := [threads 2 (NP (Some [2; 1])) 4; threads 0 GEDF 2; threads 0 (Adaptive (Some [1; 3])) 2] in
  wf empty_heap /\ Forall startable envs /\ Forall one_watchdog ops /\
  exists h, life true true envs ops empty_heap = Ok (tt, h) /\ List.length (live h) = 17.
Proof.
  split; [split; constructor|]. split; [repeat constructor|]. split; [repeat constructor|].
  eexists. split; [vm_compute; reflexivity|reflexivity].
Qed.
(** Two events were pending at the same time, so that the third one is the first. *)
Example C83_peaks_example : peaks 2 [NewEvent 0; NewEvent 0; HandleEvent 0; NewEvent 0; HandleEvent 1; NewEvent 1] = 3.
Proof. reflexivity. Qed.

(** Without threads, watchdogs and events everything is released. *)
Theorem C83_all_released : forall modal threaded envs os h0,
  wf h0 -> Forall (fun c => c_threaded c = None /\ c_watchdogs c = 0) envs -> Forall no_watchdog os -> Forall no_event os ->
  (modal = true \/ Forall no_suspension os) ->
  exists h, life modal threaded envs os h0 = Ok (tt, h) /\ Permutation (live h) (live h0).
Proof.
  intros modal threaded envs os h0 W C NW NE MO.
  destruct (life_exact modal threaded envs os h0 W) as (h & leak & E & PL & K & B & _).
  - eapply Forall_impl; [|exact C]. intros c [T _]. unfold startable. rewrite T. exact Logic.I.
  - eapply Forall_impl; [|exact NW]. intros [first w| | | | |]; cbn; lia.
  - assumption.
  - right. assumption.
  - exists h. split; [assumption|]. assert (leak = []) as ->; [|assumption].
    assert (Z : forall k, count k leak = 0).
    { intros k. destruct (kind_eq_dec k KEvent) as [->|N].
      - assert (count_if new_event os = 0); [|lia]. clear -NE. unfold count_if. induction NE as [|o os NO _ IH]; [reflexivity|].
        cbn [filter]. destruct o; cbn in *; try contradiction; assumption.
      - rewrite (K k N).
        assert (Z0 : forall f, Forall (fun c => f c = false) envs -> count_if f envs = 0).
        { clear. intros f F. unfold count_if. induction F as [|c cs E _ IH]; [reflexivity|]. cbn [filter]. rewrite E. assumption. }
        assert (ZM : count_if other_mutex os = 0).
        { clear -NW. unfold count_if. induction NW as [|o os NO _ IH]; [reflexivity|]. cbn [filter].
          destruct o as [[|] w| | | | |]; cbn in *; try assumption. rewrite NO. assumption. }
        destruct k; cbn [leaked]; try reflexivity; try assumption;
        apply Z0; eapply Forall_impl; try exact C; intros c [T0 W0]; cbv beta; unfold is_threaded, is_np, is_adaptive;
        rewrite ?T0, ?W0; reflexivity. }
    destruct leak as [|b leak]; [reflexivity|]. specialize (Z (snd b)). unfold count in Z. cbn [filter] in Z.
    destruct (kind_eq_dec (snd b) (snd b)); [discriminate|congruence].
Qed.
Print Assumptions C83_all_released.
Example C83_all_released_nonvacuous : exists h,
  life true false [single; single] [NewReactor true 0; Allocate 0; Suspend 0; NewReactor false 0; Allocate 1] empty_heap = Ok (tt, h) /\
  next h = 38 /\ live h = [].
Proof. eexists. split; [vm_compute; reflexivity|split; reflexivity]. Qed.

(** ** What is wrong. *)
(** Two watchdogs of a reactor share its mutex, and it is freed for each of them. *)
Theorem C83_double_free_refuted : exists envs os, Forall startable envs /\ life false true envs os empty_heap = UB.
Proof. exists [threads 2 GEDF 1], [NewReactor true 2]. split; [repeat constructor|reflexivity]. Qed.
Print Assumptions C83_double_free_refuted.
(** For a program without reactions the scheduler NP allocates nothing, and the null
    pointer is dereferenced at the end. *)
Theorem C83_no_reactions_refuted : exists envs os, Forall one_watchdog os /\ Forall no_watchdog os /\ life false true envs os empty_heap = UB.
Proof. exists [threads 0 (NP None) 1], [NewReactor true 0]. split; [repeat constructor|]. split; [repeat constructor|reflexivity]. Qed.
Print Assumptions C83_no_reactions_refuted.
(** An event that was scheduled is never freed, whether it was handled or not. *)
Theorem C83_event_refuted : forall h0, wf h0 ->
  exists h p, life false false [single] [NewReactor true 0; NewEvent 0; HandleEvent 0] h0 = Ok (tt, h) /\
    Permutation (live h) ((p, KEvent) :: live h0).
Proof.
  intros h0 W. destruct (life_exact false false [single] [NewReactor true 0; NewEvent 0; HandleEvent 0] h0 W) as (h & leak & E & PL & K & _ & B).
  1-2: repeat constructor.
  1-2: right; repeat constructor.
  assert (CE : count KEvent leak = 1) by (rewrite B by (repeat constructor); reflexivity). clear B.
  exists h. destruct leak as [|[p k] leak]; [discriminate|].
  assert (NK : forall a x, In (a, x) ((p, k) :: leak) -> x = KEvent).
  { intros a x IN. destruct (kind_eq_dec x KEvent) as [|N]; [assumption|]. exfalso.
    assert (Z : count x ((p, k) :: leak) = 0) by (etransitivity; [exact (K x N)|destruct x; reflexivity]).
    unfold count in Z. apply length_zero_iff_nil in Z.
    assert (IN2 : In (a, x) (filter (fun b : block => if kind_eq_dec (snd b) x then true else false) ((p, k) :: leak))).
    { apply filter_In. split; [assumption|]. cbn [snd]. destruct (kind_eq_dec x x); [reflexivity|congruence]. }
    unfold block in *. rewrite Z in IN2. destruct IN2. }
  assert (k = KEvent) as -> by (apply (NK p); left; reflexivity).
  exists p. split; [assumption|]. destruct leak as [|[q k] leak]; [assumption|]. exfalso.
  assert (k = KEvent) as -> by (apply (NK q); right; left; reflexivity).
  unfold count in CE. cbn [filter snd] in CE. destruct (kind_eq_dec KEvent KEvent); [discriminate|congruence].
Qed.
Print Assumptions C83_event_refuted.
(** Whatever else is true, a threaded environment leaves the block of its scheduler. *)
Theorem C83_scheduler_refuted : forall modal envs os h0, wf h0 -> Forall startable envs -> Forall one_watchdog os ->
  (modal = true \/ Forall no_suspension os) -> Exists (fun c => c_threaded c <> None) envs ->
  exists h, life modal true envs os h0 = Ok (tt, h) /\ count KSched (live h0) < count KSched (live h).
Proof.
  intros modal envs os h0 W ST OW MO EX.
  destruct (life_exact modal true envs os h0 W ST OW MO (or_introl eq_refl)) as (h & leak & E & PL & K & _).
  exists h. split; [assumption|]. rewrite (count_perm KSched _ _ PL), count_app.
  assert (X : count KSched leak = leaked envs os KSched) by (apply K; discriminate). rewrite X. cbn [leaked].
  assert (0 < count_if is_threaded envs); [|lia]. clear -EX. induction EX as [c cs T|c cs _ IH]; rewrite count_if_cons.
  - unfold is_threaded. destruct (c_threaded c); [cbn [b2n]; lia|congruence].
  - lia.
Qed.
Print Assumptions C83_scheduler_refuted.
Theorem C83_indexes_refuted : exists h, life false true [threads 0 (NP (Some [1])) 1] [] empty_heap = Ok (tt, h) /\
  map snd (live h) = [KIndexes; KSched].
Proof. eexists. split; [vm_compute; reflexivity|reflexivity]. Qed.
Print Assumptions C83_indexes_refuted.
Theorem C83_adaptive_refuted : exists h, life false true [threads 0 (Adaptive (Some [1])) 1] [] empty_heap = Ok (tt, h) /\
  map snd (live h) = [KArgmins; KMins; KNumByLevel; KByLevel; KCumsum; KData; KAssignments; KWorkerStates; KSched].
Proof. eexists. split; [vm_compute; reflexivity|reflexivity]. Qed.
Print Assumptions C83_adaptive_refuted.
(** The array of the watchdogs, and the mutexes of the watchdogs in the other enclaves. *)
Theorem C83_watchdogs_refuted : exists h, life false true [threads 1 GEDF 1; threads 1 GEDF 1] [NewReactor true 1; NewReactor false 1] empty_heap = Ok (tt, h) /\
  count KWatchdogs (live h) = 2 /\ count KMutex (live h) = 1.
Proof. eexists. split; [vm_compute; reflexivity|split; reflexivity]. Qed.
Print Assumptions C83_watchdogs_refuted.
