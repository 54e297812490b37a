(** C71: thread priorities keep their order, thread ids and thread structures are not
    shared. *)
From Verif Require Import Base PlatformThreads PlatformThreadsSpec PlatformThreadsProofs.

(** The map between ranges of priorities, for all ranges of which 99 times the width is
    an int. *)
Theorem C71_priorities : forall least most,
  ranges least most ->
  ordered_map least most (fun p => map_priorities p least most) /\
  (99 <= Z.abs (most - least) -> distinct_map (fun p => map_priorities p least most)) /\
  (Z.abs (most - least) <= 99 -> onto_map least most (fun p => map_priorities p least most)) /\
  (forall p, ~ 0 <= p <= 99 -> map_priorities p least most = Ok (-1)).
Proof.
  intros lo hi R. split; [apply map_ordered; exact R|].
  split; [intros W; apply map_distinct; assumption|].
  split; [intros W; apply map_onto; assumption|].
  intros p P. unfold map_priorities, LF_SCHED_MIN_PRIORITY, LF_SCHED_MAX_PRIORITY.
  destruct (Z.ltb_spec p 0); [reflexivity|]. destruct (Z.ltb_spec 99 p); [reflexivity|lia].
Qed.

Example C71_priorities_ex :
  ranges 1 99 /\ map_priorities 50 1 99 = Ok 50 /\ map_priorities 25 14 0 = Ok 11 /\
  ranges 14 0 /\ map_priorities 100 1 99 = Ok (-1).
Proof. unfold ranges. vm_compute. repeat split; discriminate. Qed.

(** Beyond that the multiplication overflows. *)
Theorem C71_priorities_overflow : exists least most p,
  0 <= p <= 99 /\ 0 <= least <= most /\ most <= 2147483647 /\ map_priorities p least most = UB.
Proof. exists 0, 2147483647, 2. vm_compute. repeat split; discriminate. Qed.

(** Linux: setting the priority succeeds for every thread (if the system permits it), the
    priority is one of its policy, and more urgent priorities are never less urgent for
    the system; a priority outside of 0..99 is refused and changes nothing. *)
Theorem C71_linux_priority : forall s th p,
  (0 <= p <= 99 -> setschedprio s = 0 ->
   exists v, linux_set_priority s th p = Ok (mkThread (th_policy th) v, 0) /\
     posix_min (th_policy th) <= v <= posix_max (th_policy th) /\
     map_priorities p (posix_min (th_policy th)) (posix_max (th_policy th)) = Ok v) /\
  (~ 0 <= p <= 99 -> linux_set_priority s th p = Ok (th, -1)) /\
  (forall th' r, linux_set_priority s th p = Ok (th', r) -> r <> 0 -> th' = th).
Proof.
  intros s th p.
  assert (OUT : ~ 0 <= p <= 99 -> linux_set_priority s th p = Ok (th, -1)).
  { intros P. unfold linux_set_priority, LF_SCHED_MIN_PRIORITY, LF_SCHED_MAX_PRIORITY.
    destruct (Z.ltb_spec 99 p); [reflexivity|]. destruct (Z.ltb_spec p 0); [reflexivity|lia]. }
  assert (IN : 0 <= p <= 99 ->
    let v := lin p (posix_min (th_policy th)) (posix_max (th_policy th)) in
    linux_set_priority s th p =
      if setschedprio s =? 0 then Ok (mkThread (th_policy th) v, 0) else Ok (th, setschedprio s)).
  { intros P v. unfold linux_set_priority, LF_SCHED_MIN_PRIORITY, LF_SCHED_MAX_PRIORITY.
    destruct (Z.ltb_spec 99 p); [lia|]. destruct (Z.ltb_spec p 0); [lia|]. cbn [orb].
    rewrite map_is by (assumption || apply posix_ranges). cbn [bind].
    pose proof (posix_in (th_policy th) p P) as B. fold v in B |- *.
    assert (0 <= posix_min (th_policy th)) by (destruct (th_policy th); cbn; lia).
    destruct (Z.ltb_spec v 0); [lia|].
    destruct (setschedprio s =? 0); cbn [negb]; [|reflexivity].
    destruct (Z.ltb_spec v (posix_min (th_policy th))); [lia|].
    destruct (Z.ltb_spec (posix_max (th_policy th)) v); [lia|]. reflexivity. }
  split; [|split; [exact OUT|]].
  - intros P Z. specialize (IN P). cbn zeta in IN. rewrite Z, Z.eqb_refl in IN.
    eexists. split; [exact IN|]. split; [apply posix_in; exact P|].
    apply map_is; [exact P|apply posix_ranges].
  - intros th' r H NZ. destruct (Z_le_dec 0 p) as [A|A]; [destruct (Z_le_dec p 99) as [B|B]|].
    + rewrite (IN (conj A B)) in H. destruct (setschedprio s =? 0) eqn:E in H.
      * injection H as _ H. congruence.
      * remember (setschedprio s) as e. injection H as H _. congruence.
    + rewrite OUT in H by lia. injection H as H _. congruence.
    + rewrite OUT in H by lia. injection H as H _. congruence.
Qed.

Example C71_linux_priority_ex :
  linux_set_priority (mkSystem 0 0) (mkThread SCHED_FIFO 99) 50 = Ok (mkThread SCHED_FIFO 50, 0) /\
  linux_set_priority (mkSystem 0 1) (mkThread SCHED_FIFO 99) 50 = Ok (mkThread SCHED_FIFO 99, 1) /\
  linux_set_priority (mkSystem 0 0) (mkThread SCHED_RR 7) 100 = Ok (mkThread SCHED_RR 7, -1).
Proof. vm_compute. repeat split. Qed.

(** On Linux the priorities 0 and 1 are the same. *)
Theorem C71_linux_distinct_refuted :
  ~ distinct_map (fun p => map_priorities p (posix_min SCHED_FIFO) (posix_max SCHED_FIFO)).
Proof. intros D. specialize (D 0 1 1). cbn beta in D. assert (0 = 1); [|lia]. apply D; vm_compute; try reflexivity; split; discriminate. Qed.

(** When setting the policy succeeds the thread has the policy asked for, and a real-time
    policy has the priority asked for. *)
Theorem C71_linux_policy_partial : forall s th p pri th',
  linux_set_policy s th p pri = Ok (th', 0) ->
  match p with
  | LF_SCHED_FAIR => th' = mkThread SCHED_OTHER 0
  | LF_SCHED_TIMESLICE => th_policy th' = SCHED_RR /\ map_priorities pri 1 99 = Ok (th_priority th') /\ 0 <= pri <= 99
  | LF_SCHED_PRIORITY => th_policy th' = SCHED_FIFO /\ map_priorities pri 1 99 = Ok (th_priority th') /\ 0 <= pri <= 99
  | LF_SCHED_OTHER => False
  end.
Proof.
  intros s th p pri th' H. unfold linux_set_policy in H.
  assert (K : forall pol th1, th_policy th1 = pol -> posix_min pol = 1 -> posix_max pol = 99 ->
    linux_set_priority s th1 pri = Ok (th', 0) ->
    th_policy th' = pol /\ map_priorities pri 1 99 = Ok (th_priority th') /\ 0 <= pri <= 99).
  { intros pol th1 E M1 M2 L. destruct (C71_linux_priority s th1 pri) as [A [B C]].
    assert (P : 0 <= pri <= 99).
    { destruct (Z_le_dec 0 pri); [destruct (Z_le_dec pri 99); [lia|]|];
        rewrite B in L by lia; discriminate. }
    destruct (Z.eq_dec (setschedprio s) 0) as [Z|Z].
    - destruct (A P Z) as [v [V1 [V2 V3]]]. rewrite V1 in L. rewrite E, M1, M2 in V3.
      injection L as L. subst th'. cbn [th_policy th_priority]. split; [exact E|split; assumption].
    - exfalso. unfold linux_set_priority, LF_SCHED_MIN_PRIORITY, LF_SCHED_MAX_PRIORITY in L.
      destruct (_ || _) in L; [discriminate|].
      rewrite map_is in L by (assumption || apply posix_ranges). cbn [bind] in L.
      destruct (_ <? 0) in L; [discriminate|].
      destruct (Z.eqb_spec (setschedprio s) 0); [contradiction|]. cbn [negb] in L.
      remember (setschedprio s) as e. injection L as _ L. congruence. }
  destruct p; cbn [linux_policy] in H.
  - destruct (Z.eqb_spec (setschedparam s) 0) as [Z|Z]; cbn [negb] in H.
    + injection H as H. congruence.
    + remember (setschedparam s) as e. injection H as _ H. congruence.
  - destruct (Z.eqb_spec (setschedparam s) 0) as [Z|Z]; cbn [negb] in H.
    + exact (K SCHED_RR (mkThread SCHED_RR _) eq_refl eq_refl eq_refl H).
    + remember (setschedparam s) as e. injection H as _ H. congruence.
  - destruct (Z.eqb_spec (setschedparam s) 0) as [Z|Z]; cbn [negb] in H.
    + exact (K SCHED_FIFO (mkThread SCHED_FIFO _) eq_refl eq_refl eq_refl H).
    + remember (setschedparam s) as e. injection H as _ H. congruence.
  - discriminate.
Qed.

Example C71_linux_policy_ex :
  linux_set_policy (mkSystem 0 0) (mkThread SCHED_OTHER 0) LF_SCHED_PRIORITY 80
    = Ok (mkThread SCHED_FIFO 80, 0).
Proof. vm_compute. reflexivity. Qed.

(** But when it fails because of the priority, the thread has been given the highest
    real-time priority of the system. *)
Theorem C71_linux_policy_refuted :
  exists pri, linux_set_policy (mkSystem 0 0) (mkThread SCHED_OTHER 0) LF_SCHED_PRIORITY pri
    = Ok (mkThread SCHED_FIFO (posix_max SCHED_FIFO), -1).
Proof. exists 300. vm_compute. reflexivity. Qed.

(** Zephyr: smaller numbers are more urgent. *)
Theorem C71_zephyr_priority : forall n old p,
  1 <= n -> 99 * (n - 1) <= 2147483647 ->
  (0 <= p <= 99 ->
   exists v, zephyr_set_priority n old p = Ok (v, 0) /\ 0 <= v <= n - 1 /\
     map_priorities p (n - 1) 0 = Ok v) /\
  (~ 0 <= p <= 99 -> zephyr_set_priority n old p = Ok (old, -1)).
Proof.
  intros n old p N B.
  unfold zephyr_set_priority, LF_SCHED_MIN_PRIORITY, LF_SCHED_MAX_PRIORITY. split.
  - intros P. destruct (Z.ltb_spec 99 p); [lia|]. destruct (Z.ltb_spec p 0); [lia|]. cbn [orb].
    assert (R : ranges (n - 1) 0) by (unfold ranges; lia).
    destruct (map_ordered _ _ R) as [_ [_ [A _]]]. destruct (A p P) as [v [E V]].
    exists v. rewrite E. cbn [bind]. destruct (Z.ltb_spec v 0); [lia|].
    split; [reflexivity|split; [lia|reflexivity]].
  - intros P. destruct (Z.ltb_spec 99 p); [reflexivity|]. destruct (Z.ltb_spec p 0); [reflexivity|lia].
Qed.

Example C71_zephyr_priority_ex :
  zephyr_set_priority 15 3 0 = Ok (14, 0) /\ zephyr_set_priority 15 3 99 = Ok (0, 0) /\
  zephyr_set_priority 15 3 50 = Ok (7, 0).
Proof. vm_compute. repeat split. Qed.

(** Thread ids: whatever threads ask for an id, in whatever order and however often, no two
    of them have the same one, and those that have none show -1; if each asks once, the
    ids are the numbers from 0 on, in the order of the calls. *)
Theorem C71_ids : forall l,
  Z.of_nat (length l) <= 2147483647 ->
  exists s, initialize_all ids0 l = Ok s /\
    (forall k, In k l -> 0 <= lf_thread_id s k < Z.of_nat (length l)) /\
    (forall k, ~ In k l -> lf_thread_id s k = -1) /\
    (forall j k, In j l -> In k l -> lf_thread_id s j = lf_thread_id s k -> j = k) /\
    (NoDup l -> forall n k, nth_error l n = Some k -> lf_thread_id s k = Z.of_nat n).
Proof.
  intros l B. destruct (id_total l ids0 [] id0 B) as [s E]. exists s. split; [exact E|].
  pose proof (id_run l ids0 [] s id0 E) as [C [R [N D]]].
  assert (M : forall k, In k (rev l ++ []) <-> In k l)
    by (intros k; rewrite app_nil_r; symmetry; apply in_rev).
  rewrite app_nil_r, rev_length in C.
  split; [intros k K; rewrite <- C; apply R, M, K|].
  split; [intros k K; apply N; rewrite M; exact K|].
  split; [intros j k J K; apply D; apply M; assumption|].
  intros ND n k K. destruct (id_once l ids0 s [] id0) as [_ O];
    [rewrite app_nil_r; exact ND|exact E|].
  unfold lf_thread_id. rewrite (O n k K). cbn [worker_thread_count ids0]. lia.
Qed.

Example C71_ids_ex : exists s,
  initialize_all ids0 [4; 2; 9; 2]%nat = Ok s /\
  map (lf_thread_id s) [4; 2; 9; 7]%nat = [0; 3; 2; -1].
Proof. eexists. split; reflexivity. Qed.

(** Zephyr: no two threads get the same stack, and none gets one that does not exist; as
    many threads as there are can be created. *)
Theorem C71_zephyr_create_partial : forall n l,
  (Z.of_nat (length l) <= n ->
   zephyr_creates n pool0 l = map (fun i => Created (Z.of_nat i)) (seq 0 (length l))) /\
  (forall i, In (Created i) (zephyr_creates n pool0 l) -> 0 <= i < n) /\
  (forall a b i j, zephyr_creates n pool0 l = a ++ Created i :: b -> In (Created j) b -> i < j).
Proof.
  intros n l. split; [|split].
  - intros B. rewrite creates_slots; [reflexivity|reflexivity|cbn; lia|exact B].
  - intros i H. exact (creates_all l n pool0 _ (Z.le_refl 0) H i eq_refl).
  - assert (K : forall l s a b i j, 0 <= tid s ->
      zephyr_creates n s l = a ++ Created i :: b -> In (Created j) b -> i < j).
    { clear l. induction l as [|k l IH]; intros s a b i j T E J; cbn [zephyr_creates] in E.
      - destruct a; discriminate.
      - destruct (zephyr_create n s k) as [s1 c] eqn:Z.
        assert (T1 : tid s <= tid s1 /\ forall x, c = Created x -> x < tid s1).
        { unfold zephyr_create in Z. destruct (negb _) in Z; [|destruct (Z.ltb_spec (n - 1) (tid s)) in Z];
            injection Z as Z1 Z2; subst s1 c; cbn [tid]; (split; [lia|]); intros x X;
            [discriminate|discriminate|injection X as X; lia]. }
        destruct a as [|c' a]; cbn [app] in E; injection E as E1 E2.
        + subst c b. destruct T1 as [T1 T2]. specialize (T2 i eq_refl).
          pose proof (creates_all l n s1 _ ltac:(lia) J j eq_refl). lia.
        + apply (IH s1 a b i j); [lia|exact E2|exact J]. }
    intros a b i j. apply K. cbn. lia.
Qed.

Example C71_zephyr_create_ex :
  zephyr_creates 2 pool0 [0; 5; 5]%nat = [Created 0; Created 1; CreateError].
Proof. vm_compute. reflexivity. Qed.

(** But the error path does not unlock the mutex: after one thread has been refused, a
    call by another never returns. *)
Theorem C71_zephyr_create_refuted : forall n j k,
  0 <= n -> j <> k ->
  exists l, zephyr_creates n pool0 (l ++ [j; k]) =
    map (fun i => Created (Z.of_nat i)) (seq 0 (length l)) ++ [CreateError; Blocked].
Proof.
  intros n j k N D. exists (repeat j (Z.to_nat n)).
  assert (K : forall m s, locked s = None -> tid s + Z.of_nat m = n -> 0 <= tid s ->
    zephyr_creates n s (repeat j m ++ [j; k]) =
    map (fun i => Created (tid s + Z.of_nat i)) (seq 0 m) ++ [CreateError; Blocked]).
  { induction m as [|m IH]; intros s L T T0.
    - cbn [repeat app zephyr_creates seq map]. unfold zephyr_create at 1. rewrite L. cbn [negb].
      destruct (Z.ltb_spec (n - 1) (tid s)) as [X|X]; [|lia].
      unfold zephyr_create. cbn [locked]. destruct (Nat.eqb_spec j k) as [Q|Q]; [contradiction|].
      reflexivity.
    - cbn [repeat app zephyr_creates seq map]. unfold zephyr_create at 1. rewrite L. cbn [negb].
      destruct (Z.ltb_spec (n - 1) (tid s)) as [X|X]; [lia|].
      f_equal; [f_equal; lia|]. rewrite IH; cbn [tid locked]; [|reflexivity|lia|lia].
      f_equal. rewrite <- seq_shift, map_map. apply map_ext. intros i. f_equal. lia. }
  rewrite repeat_length. rewrite K; [reflexivity|reflexivity|cbn; lia|cbn; lia].
Qed.

Print Assumptions C71_priorities.
Print Assumptions C71_priorities_overflow.
Print Assumptions C71_linux_priority.
Print Assumptions C71_linux_distinct_refuted.
Print Assumptions C71_linux_policy_partial.
Print Assumptions C71_linux_policy_refuted.
Print Assumptions C71_zephyr_priority.
Print Assumptions C71_ids.
Print Assumptions C71_zephyr_create_partial.
Print Assumptions C71_zephyr_create_refuted.
