(** Property theorems C11-C17 (containers, counters, semaphore). *)
From Verif Require Import Base Pqueue Vector VectorSpec VectorProofs Deque DequeSpec DequeProofs
  Hashset HashsetSpec HashsetProofs Hashmap HashmapSpec HashmapProofs MixedRadix MixedRadixSpec MixedRadixProofs Semaphore SemaphoreProofs.
From Coq Require Import Permutation.
Open Scope nat_scope.

(** ** C11 vector *)

(** Any history on a vector of positive initial capacity runs without undefined
    behaviour or failed assertion, and answers as the stack specification. *)
Theorem C11_histories_refine_stack : forall n ops, 1 <= n -> Forall vpre ops ->
  exists v outs, vec_run (vec_new n) ops = Ok (v, outs) /\ vspec_run [] ops (vabs v) outs /\
    v_next v <= v_cap v /\ 1 <= v_cap v.
Proof.
  intros n ops Hn Hf. destruct (vec_run_ok ops (vec_new n)) as (v & outs & E & [H1 H2] & S);
    [split; cbn; lia|exact Hf|]. exists v, outs. repeat split; assumption.
Qed.
Print Assumptions C11_histories_refine_stack.

(** On pure push/pop histories this determines the answers: last in, first out. *)
Theorem C11_lifo : forall n xs, 1 <= n -> Forall (fun x => x <> 0) xs ->
  exists v outs, vec_run (vec_new n) (map VPush xs ++ repeat VPop (length xs) ++ [VPop]) = Ok (v, outs) /\
    outs = repeat VUnit (length xs) ++ map (fun x => VPopped (Some (Some x))) (rev xs) ++ [VPopped None].
Proof.
  intros n xs Hn Hx.
  destruct (vec_run_ok (map VPush xs ++ repeat VPop (length xs) ++ [VPop]) (vec_new n)) as (v & outs & E & _ & S).
  - split; cbn; lia.
  - apply Forall_app; split; [|apply Forall_app; split].
    + apply Forall_map. apply Forall_forall. intros; exact I.
    + apply Forall_forall. intros o Ho. apply repeat_spec in Ho. subst. exact I.
    + repeat constructor.
  - exists v, outs. split; [exact E|]. clear E Hx.
    assert (P : forall m s os s' outs, length s = m -> vspec_run s (repeat VPop m ++ os) s' outs ->
      exists outs2, outs = map (fun c => VPopped (Some c)) (rev s) ++ outs2 /\ vspec_run [] os s' outs2).
    { clear. induction m as [|m IH]; intros s os s' outs Hl H; cbn [repeat app] in H.
      - destruct s; [|discriminate]. exists outs. split; [reflexivity|exact H].
      - inversion H as [|? ? s1 out ? ? outs1 H1 H2]; subst. cbn [vspec] in H1.
        destruct out as [|[c|]| |]; try contradiction.
        + subst s. rewrite app_length in Hl. cbn [length] in Hl.
          destruct (IH s1 os s' outs1 ltac:(lia) H2) as (o2 & -> & H3).
          exists o2. split; [|exact H3]. rewrite rev_app_distr. reflexivity.
        + destruct H1 as [-> ->]. discriminate. }
    assert (Q : forall xs s os s' outs, vspec_run s (map VPush xs ++ os) s' outs ->
      exists outs2, outs = repeat VUnit (length xs) ++ outs2 /\ vspec_run (s ++ map Some xs) os s' outs2).
    { clear. induction xs as [|x xs IH]; intros s os s' outs H; cbn [map app] in H.
      - exists outs. rewrite app_nil_r. split; [reflexivity|exact H].
      - inversion H as [|? ? s1 out ? ? outs1 H1 H2]; subst. cbn [vspec] in H1. destruct out; try contradiction. subst s1.
        destruct (IH _ _ _ _ H2) as (o2 & -> & H3). exists o2. split; [reflexivity|].
        rewrite <- app_assoc in H3. exact H3. }
    destruct (Q _ _ _ _ _ S) as (o2 & -> & S2). cbn [app] in S2. f_equal.
    destruct (P (length xs) (map Some xs) [VPop] (vabs v) o2) as (o3 & -> & S3).
    + apply map_length.
    + exact S2.
    + rewrite <- map_rev, map_map. f_equal. inversion S3 as [|? ? s1 out ? ? outs1 H1 H2]; subst. inversion H2; subst.
      cbn [vspec] in H1. destruct out as [|[c|]| |]; try contradiction; [|reflexivity].
      exfalso; eapply app_cons_not_nil; exact H1.
Qed.
Print Assumptions C11_lifo.
Example C11_ex : (do! r <- vec_run (vec_new 1) [VPush 3; VPush 4; VPushAll [5; 6; 7]; VAtSet 1 9; VPop; VSize; VAtGet 1];
                  Ok (snd r)) = Ok [VUnit; VUnit; VUnit; VUnit; VPopped (Some (Some 7)); VNum 4; VCell (Some 9)].
Proof. vm_compute. reflexivity. Qed.

(** The documentation of vector_at (vector.c:93-96) says slots beyond the end read
    as NULL.  They hold indeterminate memory, or what an earlier pop left there. *)
Theorem C11_at_exposes_null_refuted :
  (exists n i v, 1 <= n /\ vec_run (vec_new n) [VAtGet i] = Ok (v, [VCell None])) /\
  (exists n x v, 1 <= n /\ x <> 0 /\ vec_run (vec_new n) [VPush x; VPop; VAtGet 0] = Ok (v, [VUnit; VPopped (Some (Some x)); VCell (Some x)])).
Proof.
  split.
  - eexists 2, 0, _. split; [lia|]. reflexivity.
  - eexists 4, 7, _. split; [lia|]. split; [discriminate|]. reflexivity.
Qed.
Print Assumptions C11_at_exposes_null_refuted.

(** A vector created with capacity 0 breaks: the first push writes out of bounds and
    vector_at never terminates (whatever number of loop iterations is allowed). *)
Theorem C11_zero_capacity_refuted : (forall x, vec_push (vec_new 0) x = UB) /\
  (forall fuel idx, grow_to fuel (v_cap (vec_new 0) * SCALE_FACTOR) idx = UB).
Proof.
  split; [reflexivity|]. intros fuel idx. cbn [vec_new v_cap Nat.mul].
  induction fuel as [|f IH]; [reflexivity|]. cbn [grow_to Nat.leb Nat.mul]. exact IH.
Qed.
Print Assumptions C11_zero_capacity_refuted.

(** ** C12 deque *)
Theorem C12_histories_refine_list : forall ops, allocs_ok (deq_init (fun _ => None)) ops ->
  exists d, deq_run (deq_init (fun _ => None)) ops = Ok (d, snd (dspec_run [] ops)).
Proof.
  intros ops Ha. destruct (deq_run_ok ops (deq_init (fun _ => None)) []) as (d & l & E & _).
  - repeat split; try constructor. intros a n H; discriminate.
  - exact Ha.
  - exists d. exact E.
Qed.
Print Assumptions C12_histories_refine_list.
(** The nodes still allocated are exactly those of the elements held: popping frees. *)
Theorem C12_no_leak : forall ops d outs, allocs_ok (deq_init (fun _ => None)) ops ->
  deq_run (deq_init (fun _ => None)) ops = Ok (d, outs) ->
  exists addrs, NoDup addrs /\ length addrs = length (fst (dspec_run [] ops)) /\
    forall a, In a addrs <-> d_heap d a <> None.
Proof.
  intros ops d outs Ha E0. destruct (deq_run_ok ops (deq_init (fun _ => None)) []) as (d' & l & E & Hd & Hl).
  - repeat split; try constructor. intros a n H; discriminate.
  - exact Ha.
  - rewrite E in E0. injection E0 as <- _. cbn [map] in Hl. exists (map fst l).
    destruct Hd as (H1 & H2 & H3 & H4 & H5 & H6). split; [exact H1|]. split.
    + rewrite <- Hl, !map_length. reflexivity.
    + intros a. split.
      * intros Hin. destruct (chain_live _ _ _ _ H2 Hin) as [n Hn]. congruence.
      * intros Hn. destruct (d_heap d' a) as [n|] eqn:En; [|contradiction]. eapply H6; exact En.
Qed.
Print Assumptions C12_no_leak.
Definition ex_dops := [DPushBack 1 10; DPushFront 2 20; DPushBack 3 30; DPopFront; DPushFront 2 21; DPopBack; DPeekBack; DSize; DPopBack; DPopBack; DPopBack; DIsEmpty].
Example C12_ex : allocs_ok (deq_init (fun _ => None)) ex_dops /\
  (do! r <- deq_run (deq_init (fun _ => None)) ex_dops; Ok (snd r)) =
  Ok [DUnit; DUnit; DUnit; DVal (Some 20); DUnit; DVal (Some 30); DVal (Some 10); DNum 2; DVal (Some 10); DVal (Some 21); DVal None; DBool true].
Proof. split; [vm_compute; repeat split|vm_compute; reflexivity]. Qed.

Open Scope Z_scope.
(** ** C13 hash set *)
Theorem C13_histories_refine_set : forall nbits ops, 0 <= nbits <= 30 -> Forall hpre ops -> adds ops < 2 ^ 29 ->
  exists s0 s, hs_create nbits = Ok s0 /\ hs_run s0 ops = Ok (s, snd (hspec_run [] ops)).
Proof.
  intros b ops Hb Hf Ha. destruct (create_ok b Hb) as (s0 & E0 & H0 & Hn).
  destruct (hs_run_ok ops s0 [] H0 Hf ltac:(lia)) as (s & E & _). exists s0, s. split; assumption.
Qed.
Print Assumptions C13_histories_refine_set.
Definition ex_hops := [HAdd 16; HAdd 32; HAdd 16; HAdd 0; HRemove 16; HIsMember 16; HAdd 48; HAdd 64; HNum; HIsMember 32; HAdd 80; HAdd 96; HNum; HIsMember 48].
Example C13_ex : Forall hpre ex_hops /\
  (do! s <- hs_create 1; do! r <- hs_run s ex_hops; Ok (h_cap (fst r), snd r)) = Ok (8, [1;1;0;-1;1;0;1;1;3;1;1;1;5;1]).
Proof. split; [repeat constructor; cbn; unfold two64; lia|vm_compute; reflexivity]. Qed.

(** The value 1 marks deleted slots but remove and is_member do not reject it: after
    a removal, 1 can be reported as a member, and removing it makes the count wrong. *)
Theorem C13_reserved_value_refuted : exists ops s outs, hs_create 2 = Ok s /\
  (do! r <- hs_run s ops; Ok (snd r)) = Ok outs /\
  ops = [HAdd 5; HRemove 5; HIsMember 1; HRemove 1; HNum] /\ outs = [1; 1; 1; 1; two64 - 1].
Proof.
  eexists _, _, _. split; [reflexivity|]. split; [|split; [reflexivity|reflexivity]]. vm_compute. reflexivity.
Qed.
Print Assumptions C13_reserved_value_refuted.

(** ** C14 iteration: over any reachable set, the documented loop yields exactly the
    members, each once, and no access leaves the table. *)
Theorem C14_iteration_complete : forall nbits ops s0 s outs, 0 <= nbits <= 30 -> Forall hpre ops -> adds ops < 2 ^ 29 ->
  hs_create nbits = Ok s0 -> hs_run s0 ops = Ok (s, outs) ->
  exists vs, itr_all (S (hs_fuel s)) s (-1) = Ok vs /\ NoDup vs /\ Permutation vs (fst (hspec_run [] ops)).
Proof.
  intros b ops s0 s outs Hb Hf Ha E0 E. destruct (create_ok b Hb) as (s0' & E0' & H0 & Hn).
  rewrite E0 in E0'. injection E0' as <-.
  destruct (hs_run_ok ops s0 [] H0 Hf ltac:(lia)) as (s' & E' & [Hi _]).
  rewrite E in E'. injection E' as <- _. destruct (iterate_ok s _ Hi) as (vs & Ev & P & Nd).
  exists vs. split; [exact Ev|split; assumption].
Qed.
Print Assumptions C14_iteration_complete.
(** has_next says whether next would succeed, at every position of the iterator. *)
Theorem C14_has_next : forall nbits ops s0 s outs i, 0 <= nbits <= 30 -> Forall hpre ops -> adds ops < 2 ^ 29 ->
  hs_create nbits = Ok s0 -> hs_run s0 ops = Ok (s, outs) -> -1 <= i < h_cap s ->
  exists r b, itr_next s i = Ok r /\ itr_has_next s i = Ok b /\ (b = true <-> exists j, r = Some j).
Proof.
  intros b ops s0 s outs i Hb Hf Ha E0 E Hi. destruct (create_ok b Hb) as (s0' & E0' & H0 & Hn).
  rewrite E0 in E0'. injection E0' as <-.
  destruct (hs_run_ok ops s0 [] H0 Hf ltac:(lia)) as (s' & E' & [Hinv _]).
  rewrite E in E'. injection E' as <- _. exact (has_next_iff s _ i Hinv Hi).
Qed.
Print Assumptions C14_has_next.
Example C14_ex : (do! s <- hs_create 1; do! r <- hs_run s ex_hops; itr_all 20 (fst r) (-1)) = Ok [48; 32; 64; 80; 96].
Proof. vm_compute. reflexivity. Qed.

(** ** C15 hash map *)
Theorem C15_get_latest : forall hash cap nothing kvs, (1 <= cap)%nat ->
  Forall (fun kv => fst kv <> nothing) kvs -> (length (keys kvs) <= cap)%nat ->
  exists m, hm_puts hash (hm_new cap nothing) kvs = Ok m /\
    (forall k, In k (map fst kvs) -> hm_get hash m k = Ok (latest k kvs)) /\
    occupied m = length (keys kvs).
Proof.
  intros hash cap nothing kvs Hc Hf Hl.
  destruct (puts_ok hash kvs (hm_new cap nothing) [] (new_inv hash cap nothing Hc) Hf Hl) as (m & E & Hi & Ec & En).
  exists m. split; [exact E|]. cbn [app] in Hi. split.
  - intros k Hk. apply get_ok; try assumption. rewrite En. cbn [hm_new m_nothing].
    apply in_map_iff in Hk as (kv & <- & Hkv). rewrite Forall_forall in Hf. exact (Hf kv Hkv).
  - exact (occupied_keys hash m kvs Hi).
Qed.
Print Assumptions C15_get_latest.
Definition ex_hash (k : Z) : nat := Z.to_nat (k mod 2).
Definition ex_kvs : list (Z * Z) := [(1, 10); (3, 30); (1, 11); (5, 50); (7, 70)].
Example C15_ex : Forall (fun kv => fst kv <> 0) ex_kvs /\ (length (keys ex_kvs) <= 4)%nat /\
  (do! m <- hm_puts ex_hash (hm_new 4 0) ex_kvs; do! a <- hm_get ex_hash m 1; do! b <- hm_get ex_hash m 7; Ok (a, b))
  = Ok (Some 11, Some 70).
Proof. split; [repeat constructor; cbn; lia|]. split; [vm_compute; lia|vm_compute; reflexivity]. Qed.
(** A get of an absent key does not crash as the comment on hashmap.h:136 says: in a
    map with room it returns an entry's never-written value. *)
Theorem C15_absent_key_crashes_refuted : exists hash m k, hm_puts hash (hm_new 2 0) [(1, 10)] = Ok m /\ hm_get hash m k = Ok None.
Proof. exists (fun _ => 0%nat). eexists _, 2. split; [reflexivity|]. reflexivity. Qed.
Print Assumptions C15_absent_key_crashes_refuted.

(** ** C16 mixed radix *)
(** n increments add n to the permuted value, modulo the product of the radixes. *)
Theorem C16_increment : forall n m, mr_ok m -> exists m', mr_incrs n m = Ok m' /\ mr_ok m' /\
  mr_radix m' = mr_radix m /\ mr_perm m' = mr_perm m /\ mr_size m' = mr_size m /\
  value (mr_perm m) (mr_radix m) (mr_digits m') =
    (value (mr_perm m) (mr_radix m) (mr_digits m) + Z.of_nat n) mod product (mr_perm m) (mr_radix m).
Proof.
  intros n m H. destruct (incrs_ok n m H) as (m' & E & H' & Es & Er & Ep & Ev). exists m'. exact (conj E (conj H' (conj Er (conj Ep (conj Es Ev))))).
Qed.
Print Assumptions C16_increment.
(** The digits return to their start after n increments iff the product divides n. *)
Theorem C16_period : forall n m m', mr_ok m -> mr_incrs n m = Ok m' ->
  (same_digits m m' <-> Z.of_nat n mod product (seq 0 (mr_size m)) (mr_radix m) = 0).
Proof.
  intros n m m' H E. destruct (incrs_ok n m H) as (m1 & E1 & H1 & Es & Er & Ep & Ev).
  rewrite E in E1. injection E1 as <-. rewrite (same_digits_value m m' H H1 Es Er Ep), Ev.
  rewrite <- (product_perm _ _ (mr_radix m) (ok_perm _ H)).
  pose proof (value_range _ _ _ (good_perm m H)) as Hv. clear Ev.
  set (v := value (mr_perm m) (mr_radix m) (mr_digits m)) in *. set (p := product _ _) in *.
  split.
  - intros Eq. pose proof (Z.div_mod (v + Z.of_nat n) p ltac:(lia)) as Hd. rewrite <- Eq in Hd.
    replace (Z.of_nat n) with (((v + Z.of_nat n) / p) * p) by lia. apply Z_mod_mult.
  - intros Eq. rewrite <- Zplus_mod_idemp_r, Eq, Z.add_0_r. symmetry. apply Z.mod_small; exact Hv.
Qed.
Print Assumptions C16_period.
(** Every combination of digits is reached, within one period. *)
Theorem C16_visits_all : forall m t, mr_ok m -> mr_ok t -> mr_size t = mr_size m -> mr_radix t = mr_radix m -> mr_perm t = mr_perm m ->
  exists n m', (Z.of_nat n < product (seq 0 (mr_size m)) (mr_radix m)) /\ mr_incrs n m = Ok m' /\ same_digits t m'.
Proof.
  intros m t H Ht Es Er Ep.
  pose proof (value_range _ _ _ (good_perm m H)) as Hv. pose proof (value_range _ _ _ (good_perm t Ht)) as Hw.
  rewrite Er, Ep in Hw. set (v := value _ _ (mr_digits m)) in *. set (w := value _ _ (mr_digits t)) in *.
  rewrite <- (product_perm _ _ (mr_radix m) (ok_perm _ H)). set (p := product _ _) in *.
  pose proof (Z.mod_pos_bound (w - v) p ltac:(lia)) as Hb.
  exists (Z.to_nat ((w - v) mod p)). destruct (incrs_ok (Z.to_nat ((w - v) mod p)) m H) as (m' & E & H' & Es' & Er' & Ep' & Ev).
  exists m'. split; [lia|]. split; [exact E|].
  apply (same_digits_value t m' Ht H'); try congruence. rewrite Ep, Er. fold w. rewrite Ev. fold v p.
  rewrite Z2Nat.id by lia. rewrite Zplus_mod_idemp_r. replace (v + (w - v)) with w by lia. symmetry. apply Z.mod_small; exact Hw.
Qed.
Print Assumptions C16_visits_all.
(** to_int is the positional value and parent drops low digits, when the product of
    the radixes fits in an int. *)
Theorem C16_to_int : forall m n, mr_ok m -> product (seq 0 (mr_size m)) (mr_radix m) <= INT_MAX -> (n <= mr_size m)%nat ->
  mr_to_int m = Ok (value (seq 0 (mr_size m)) (mr_radix m) (mr_digits m)) /\
  mr_parent m n = Ok (value (seq 0 (mr_size m)) (mr_radix m) (mr_digits m) / product (seq 0 n) (mr_radix m)).
Proof.
  intros m n H Hb Hn. unfold mr_to_int. rewrite !parent_ok by assumption. rewrite Nat.sub_0_r. split; [reflexivity|].
  rewrite parent_div by assumption. reflexivity.
Qed.
Print Assumptions C16_to_int.
(** ... and the bound is needed: the running factor overflows although the value fits. *)
Theorem C16_to_int_overflow_refuted : exists m, mr_ok m /\ value (seq 0 (mr_size m)) (mr_radix m) (mr_digits m) = 0 /\ mr_to_int m = UB.
Proof.
  exists (mkMR 2 (fun _ => 0) (fun _ => 65536) [0%nat; 1%nat]). split; [|split; reflexivity].
  constructor; cbn [mr_size mr_digits mr_radix mr_perm]; unfold INT_MAX; try lia. apply Permutation_refl.
Qed.
Print Assumptions C16_to_int_overflow_refuted.
Definition ex_mr := mkMR 3 (fun _ => 0) (fun i => nth i [2; 3; 4] 1) [1%nat; 0%nat; 2%nat].
Example C16_ex : mr_ok ex_mr /\ (do! m <- mr_incr ex_mr; do! a <- mr_to_int m; do! b <- mr_parent m 1; Ok (a, b)) = Ok (2, 1) /\
  product (seq 0 3) (mr_radix ex_mr) = 24.
Proof.
  split; [|split; vm_compute; reflexivity]. constructor; cbn [ex_mr mr_size mr_digits mr_radix mr_perm].
  - lia.
  - intros i Hi. destruct i as [|[|[|]]]; cbn; unfold INT_MAX; lia.
  - intros i Hi. destruct i as [|[|[|]]]; cbn; lia.
  - cbn. apply perm_swap.
Qed.

(** ** C17 semaphore: in every interleaving ending in [s], as long as the total does
    not exceed a size_t, acquires never exceed what was made available, the count is
    the difference, and nobody is blocked while the count is positive. *)
Theorem C17_semaphore : forall n es s, 0 <= n -> sem_run (sem_new n) es = Some s -> n + sm_released s < two64 ->
  sm_acquired s <= n + sm_released s /\ sm_count s = n + sm_released s - sm_acquired s /\
  (0 < sm_count s -> forall t w, sm_th s t <> Blocked w).
Proof.
  intros n es s Hn E Hb. destruct (sem_run_inv n es _ s Hb (sem_new_inv n Hn) E) as (H1 & H2 & H3 & H4 & H5).
  split; [lia|]. split; [lia|]. intros Hc t w Ht. assert (sm_count s = 0); [|lia]. apply H5. exists t, w. exact Ht.
Qed.
Print Assumptions C17_semaphore.
(** A thread scheduled while the count is positive passes. *)
Theorem C17_progress : forall s t w, 0 < sm_count s -> sm_th s t = Trying w \/ sm_th s t = Woken w ->
  exists s', sem_step s (SRun t) = Some s' /\ sm_th s' t = Idle.
Proof.
  intros s t w Hc Ht. cbn [sem_step].
  assert (K : (sm_count s =? 0) = false) by lia.
  destruct Ht as [-> | ->]; rewrite K; destruct w; eexists; (split; [reflexivity|]); apply PqueueProofs.upd_eq.
Qed.
Print Assumptions C17_progress.
Example C17_ex : option_map (fun s => (sm_count s, sm_acquired s))
    (sem_run (sem_new 1) [SCall 1 ToAcquire; SRun 1; SCall 2 ToAcquire; SRun 2; SCall 3 ToWait; SRun 3; SSpurious 2; SRun 2;
      SRelease 2; SRun 3; SRun 2]) = Some (1, 2).
Proof. vm_compute. reflexivity. Qed.
