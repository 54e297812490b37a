(** Proofs about thread priorities and ids. *)
From Verif Require Import Base PlatformThreads PlatformThreadsSpec.

Lemma int_ok : forall z, -2147483648 <= z <= 2147483647 -> int_res z = Ok z.
Proof.
  intros z H. unfold int_res. destruct (Z.leb_spec (-2147483648) z); [|lia].
  destruct (Z.leb_spec z 2147483647); [reflexivity|lia].
Qed.

(** The value of the linear map. *)
Definition lin (p lo hi : Z) : Z :=
  if lo <=? hi then lo + p * (hi - lo) / 99 else lo - p * (lo - hi) / 99.

Lemma div_part : forall p d, 0 <= p <= 99 -> 0 <= d -> 0 <= p * d / 99 <= d.
Proof.
  intros p d P D. split; [apply Z.div_pos; nia|].
  apply Z.div_le_upper_bound; nia.
Qed.

Lemma map_is : forall p lo hi,
  0 <= p <= 99 -> ranges lo hi -> map_priorities p lo hi = Ok (lin p lo hi).
Proof.
  intros p lo hi P [L [H R]]. unfold map_priorities, lin, LF_SCHED_MIN_PRIORITY, LF_SCHED_MAX_PRIORITY.
  destruct (Z.ltb_spec p 0); [lia|]. destruct (Z.ltb_spec 99 p); [lia|]. cbn [orb].
  rewrite Z.sub_0_r. rewrite int_ok by lia. cbn [bind].
  rewrite (int_ok (hi - lo)) by lia. cbn [bind].
  rewrite int_ok by nia. cbn [bind]. change (99 - 0) with 99.
  destruct (Z.leb_spec lo hi) as [B|B].
  - rewrite Z.quot_div_nonneg by nia.
    pose proof (div_part p (hi - lo) P ltac:(lia)) as D.
    rewrite int_ok by lia. cbn [bind]. rewrite int_ok by lia. reflexivity.
  - replace (p * (hi - lo)) with (- (p * (lo - hi))) by ring.
    rewrite Z.quot_opp_l by lia. rewrite Z.quot_div_nonneg by nia.
    pose proof (div_part p (lo - hi) P ltac:(lia)) as D.
    rewrite int_ok by lia. cbn [bind]. rewrite int_ok by lia. reflexivity.
Qed.

Lemma map_ordered : forall lo hi, ranges lo hi -> ordered_map lo hi (fun p => map_priorities p lo hi).
Proof.
  intros lo hi R. split; [|split; [|split]].
  - rewrite map_is by (lia || exact R). f_equal. unfold lin.
    rewrite !Z.mul_0_l. change (0 / 99) with 0. destruct (lo <=? hi); lia.
  - rewrite map_is by (lia || exact R). f_equal. unfold lin.
    rewrite !(Z.mul_comm 99), !Z.div_mul by lia. destruct (lo <=? hi); lia.
  - intros p P. exists (lin p lo hi). split; [apply map_is; assumption|]. unfold lin.
    destruct (Z.leb_spec lo hi) as [B|B].
    + pose proof (div_part p (hi - lo) P ltac:(lia)). lia.
    + pose proof (div_part p (lo - hi) P ltac:(lia)). lia.
  - intros p q u v P Q U V. rewrite map_is in U, V by (lia || exact R).
    injection U as U. injection V as V. subst u v. unfold lin.
    destruct (Z.leb_spec lo hi) as [B|B].
    + assert (p * (hi - lo) / 99 <= q * (hi - lo) / 99) by (apply Z.div_le_mono; nia). lia.
    + assert (p * (lo - hi) / 99 <= q * (lo - hi) / 99) by (apply Z.div_le_mono; nia). lia.
Qed.

Lemma div_apart : forall p q d, p < q -> 99 <= d -> p * d / 99 < q * d / 99.
Proof.
  intros p q d L D. assert (p * d / 99 + 1 <= q * d / 99); [|lia].
  replace (p * d / 99 + 1) with ((p * d + 1 * 99) / 99) by (apply Z.div_add; lia).
  apply Z.div_le_mono; nia.
Qed.

Lemma map_distinct : forall lo hi,
  ranges lo hi -> 99 <= Z.abs (hi - lo) -> distinct_map (fun p => map_priorities p lo hi).
Proof.
  intros lo hi R W p q u P Q U V. rewrite map_is in U, V by (lia || exact R).
  injection U as U. injection V as V. rewrite <- U in V. clear U. unfold lin in V.
  destruct (Z.lt_trichotomy p q) as [L|[L|L]]; [|exact L|];
    destruct (Z.leb_spec lo hi) as [B|B].
  - pose proof (div_apart p q (hi - lo) L ltac:(lia)). lia.
  - pose proof (div_apart p q (lo - hi) L ltac:(lia)). lia.
  - pose proof (div_apart q p (hi - lo) L ltac:(lia)). lia.
  - pose proof (div_apart q p (lo - hi) L ltac:(lia)). lia.
Qed.

Lemma div_reach : forall d k, 0 <= k <= d -> d <= 99 ->
  exists p, 0 <= p <= 99 /\ p * d / 99 = k.
Proof.
  intros d k K D. destruct (Z.eq_dec d 0) as [E|E].
  - exists 0. split; [lia|]. subst d. assert (k = 0) by lia. subst k. reflexivity.
  - exists ((99 * k + d - 1) / d).
    pose proof (Z.div_mod (99 * k + d - 1) d ltac:(lia)) as M.
    pose proof (Z.mod_pos_bound (99 * k + d - 1) d ltac:(lia)) as B.
    set (p := (99 * k + d - 1) / d) in *. set (r := (99 * k + d - 1) mod d) in *.
    split.
    + split; [unfold p; apply Z.div_pos; lia|].
      unfold p. assert ((99 * k + d - 1) / d < 100); [|lia].
      apply Z.div_lt_upper_bound; lia.
    + symmetry. apply Z.div_unique with (r := p * d - 99 * k); lia.
Qed.

Lemma map_onto : forall lo hi,
  ranges lo hi -> Z.abs (hi - lo) <= 99 -> onto_map lo hi (fun p => map_priorities p lo hi).
Proof.
  intros lo hi R W v V. destruct (Z.leb_spec lo hi) as [B|B].
  - destruct (div_reach (hi - lo) (v - lo)) as [p [P E]]; [lia|lia|].
    exists p. split; [exact P|]. rewrite map_is by assumption. unfold lin.
    destruct (Z.leb_spec lo hi); [|lia]. f_equal. lia.
  - destruct (div_reach (lo - hi) (lo - v)) as [p [P E]]; [lia|lia|].
    exists p. split; [exact P|]. rewrite map_is by assumption. unfold lin.
    destruct (Z.leb_spec lo hi); [lia|]. f_equal. lia.
Qed.

Lemma posix_ranges : forall pol, ranges (posix_min pol) (posix_max pol).
Proof. intros []; unfold ranges; cbn; lia. Qed.

Lemma posix_in : forall pol p, 0 <= p <= 99 ->
  posix_min pol <= lin p (posix_min pol) (posix_max pol) <= posix_max pol.
Proof.
  intros pol p P.
  destruct (map_ordered _ _ (posix_ranges pol)) as [_ [_ [A _]]].
  destruct (A p P) as [v [E B]]. rewrite map_is in E by (assumption || apply posix_ranges).
  injection E as E. subst v. destruct pol; cbn in *; lia.
Qed.

(** ** Ids *)

Definition id_inv (s : ids) (seen : list nat) : Prop :=
  worker_thread_count s = Z.of_nat (length seen) /\
  (forall k, In k seen -> 0 <= id_var s k < worker_thread_count s) /\
  (forall k, ~ In k seen -> id_var s k = -1) /\
  (forall j k, In j seen -> In k seen -> id_var s j = id_var s k -> j = k).

Lemma id_step : forall s seen k s',
  id_inv s seen -> initialize_lf_thread_id s k = Ok s' -> id_inv s' (k :: seen).
Proof.
  intros s seen k s' [C [R [N D]]] H. unfold initialize_lf_thread_id in H.
  unfold int_res in H. destruct ((_ <=? _) && (_ <=? _)) eqn:E in H; cbn [bind] in H; [|discriminate].
  remember (worker_thread_count s + 1) as w. injection H as H. subst s'.
  unfold id_inv. cbn [worker_thread_count id_var length].
  assert (K : forall j, j <> k -> In j (k :: seen) -> In j seen) by (intros j J [X|X]; congruence).
  split; [lia|]. split; [|split].
  - intros j J. destruct (Nat.eqb_spec j k) as [Q|Q]; [lia|].
    specialize (R j (K j Q J)). lia.
  - intros j J. destruct (Nat.eqb_spec j k) as [Q|Q]; [subst; exfalso; apply J; left; reflexivity|].
    apply N. intros X. apply J. right. exact X.
  - intros i j I J Q. destruct (Nat.eqb_spec i k) as [A|A]; destruct (Nat.eqb_spec j k) as [B|B].
    + congruence.
    + specialize (R j (K j B J)). lia.
    + specialize (R i (K i A I)). lia.
    + exact (D i j (K i A I) (K j B J) Q).
Qed.

Lemma id_run : forall l s seen s',
  id_inv s seen -> initialize_all s l = Ok s' -> id_inv s' (rev l ++ seen).
Proof.
  induction l as [|k l IH]; intros s seen s' I H; cbn [initialize_all] in H.
  - injection H as H. subst. exact I.
  - destruct (initialize_lf_thread_id s k) as [s1|] eqn:E; cbn [bind] in H; [|discriminate].
    specialize (IH _ _ _ (id_step _ _ _ _ I E) H). cbn [rev]. rewrite <- app_assoc. exact IH.
Qed.

Lemma id_total : forall l s seen,
  id_inv s seen -> Z.of_nat (length seen + length l) <= 2147483647 -> exists s', initialize_all s l = Ok s'.
Proof.
  induction l as [|k l IH]; intros s seen I B; cbn [initialize_all]; [eexists; reflexivity|].
  cbn [length] in B.
  assert (exists s1, initialize_lf_thread_id s k = Ok s1) as [s1 E].
  { unfold initialize_lf_thread_id. destruct I as [C _]. rewrite int_ok by lia. cbn [bind].
    eexists; reflexivity. }
  rewrite E. cbn [bind]. apply (IH s1 (k :: seen)); [exact (id_step _ _ _ _ I E)|cbn [length]; lia].
Qed.

Lemma id0 : id_inv ids0 [].
Proof.
  split; [reflexivity|]. split; [intros k []|]. split; [reflexivity|intros j k []].
Qed.

(** An id is given to as many threads as called, each once, in order. *)
Lemma id_once : forall l s s' seen,
  id_inv s seen -> NoDup (l ++ seen) -> initialize_all s l = Ok s' ->
  (forall k, In k seen -> id_var s' k = id_var s k) /\
  (forall n k, nth_error l n = Some k -> id_var s' k = worker_thread_count s + Z.of_nat n).
Proof.
  induction l as [|k l IH]; intros s s' seen I ND H; cbn [initialize_all] in H.
  - injection H as H. subst. split; [reflexivity|intros [|n] k H; discriminate].
  - destruct (initialize_lf_thread_id s k) as [s1|] eqn:E; cbn [bind] in H; [|discriminate].
    pose proof (id_step _ _ _ _ I E) as I1.
    cbn [app] in ND. inversion ND as [|? ? NI ND']; subst.
    assert (ND1 : NoDup (l ++ k :: seen)).
    { apply NoDup_Add with (a := k) (l := l ++ seen).
      - apply Add_app.
      - split; assumption. }
    destruct (IH s1 s' (k :: seen) I1 ND1 H) as [A B].
    unfold initialize_lf_thread_id in E. unfold int_res in E.
    destruct ((_ <=? _) && (_ <=? _)) in E; cbn [bind] in E; [|discriminate].
    remember (worker_thread_count s + 1) as w. injection E as E. subst s1.
    cbn [worker_thread_count id_var] in A, B. split.
    + intros j J. rewrite (A j (or_intror J)). destruct (Nat.eqb_spec j k) as [Q|Q]; [|reflexivity].
      subst j. exfalso. apply NI. apply in_or_app. right. exact J.
    + intros [|n] j J; cbn [nth_error] in J.
      * injection J as J. subst j. rewrite (A k (or_introl eq_refl)), Nat.eqb_refl. lia.
      * rewrite (B n j J). lia.
Qed.

(** ** Creating threads on Zephyr *)

Lemma creates_slots : forall l n s,
  locked s = None -> 0 <= tid s -> tid s + Z.of_nat (length l) <= n ->
  zephyr_creates n s l = map (fun i => Created (tid s + Z.of_nat i)) (seq 0 (length l)).
Proof.
  induction l as [|k l IH]; intros n s L T B; [reflexivity|].
  cbn [length] in B. cbn [zephyr_creates length seq map].
  unfold zephyr_create. rewrite L. cbn [negb].
  destruct (Z.ltb_spec (n - 1) (tid s)) as [X|X]; [lia|].
  f_equal; [f_equal; lia|]. rewrite IH; cbn [tid locked]; [|reflexivity|lia|lia].
  rewrite <- seq_shift, map_map. apply map_ext. intros i. f_equal. lia.
Qed.

Lemma creates_all : forall l n s r,
  0 <= tid s -> In r (zephyr_creates n s l) -> forall i, r = Created i -> tid s <= i < n.
Proof.
  induction l as [|k l IH]; intros n s r T H i E; [destruct H|].
  cbn [zephyr_creates] in H. unfold zephyr_create in H.
  destruct (negb _) eqn:M in H; cbn zeta in H.
  - destruct H as [H|H]; [subst; discriminate|]. exact (IH n s r T H i E).
  - destruct (Z.ltb_spec (n - 1) (tid s)) as [X|X].
    + destruct H as [H|H]; [subst; discriminate|]. exact (IH n (mkPool (tid s) (Some k)) r T H i E).
    + destruct H as [H|H].
      * subst r. injection E as E. lia.
      * specialize (IH n (mkPool (tid s + 1) (locked s)) r ltac:(cbn; lia) H i E). cbn in IH. lia.
Qed.
