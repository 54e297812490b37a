(** The physical clock never decreases: property C50. *)
From Verif Require Import Base Tag Clock.
From Coq Require Import Sorting.Sorted.
Open Scope Z_scope.

(** The values returned, in the order in which the calls return. *)
Definition readings (c : clock) : list Z := rev (map snd (returned c)).

(** A thread that is about to return [now] has [now] not below what it loaded,
    and the values returned so far are in descending order, latest first, none
    above the last one read. *)
Definition inv (c : clock) : Prop :=
  (forall t now last, thread c t = HasLast now last -> last <= now) /\
  (forall v, In v (map snd (returned c)) -> v <= last_read c) /\
  StronglySorted Z.ge (map snd (returned c)) /\
  (match map snd (returned c) with [] => last_read c = NEVER | v :: _ => last_read c = v end).

Lemma step_inv c o c' : inv c -> step c o = Ok c' -> inv c'.
Proof.
  intros (I1 & I2 & I3 & I4) E. destruct o as [t raw|t|t|t]; cbn [step] in E.
  - destruct (thread c t); injection E as <-; (split; [|now split]); cbn; intros u n l; try apply I1.
    destruct (Nat.eqb u t); [discriminate|apply I1].
  - injection E as <-. now split.
  - destruct (thread c t) as [|now|now last] eqn:T; try (injection E as <-; now split).
    cbn zeta in E. destruct (Z.ltb_spec now (last_read c)).
    + unfold c_add64, bind in E. destruct (in_int64b _); [|discriminate]. injection E as <-.
      split; [|now split]. cbn. intros u n l. destruct (Nat.eqb u t); [|apply I1]. intros [= <- <-]. lia.
    + injection E as <-. split; [|now split]. cbn. intros u n l. destruct (Nat.eqb u t); [|apply I1]. intros [= <- <-]. lia.
  - destruct (thread c t) as [|now|now last] eqn:T; try (injection E as <-; now split).
    destruct (Z.eqb_spec (last_read c) last) as [L|L].
    + injection E as <-. pose proof (I1 t now last T) as M. unfold inv. cbn [thread last_read returned map snd].
      split; [|split; [|split]].
      * intros u n l. destruct (Nat.eqb u t); [discriminate|apply I1].
      * intros v [<-|Hv]; [lia|]. specialize (I2 v Hv). lia.
      * constructor; [exact I3|]. apply Forall_forall. intros v Hv. specialize (I2 v Hv). lia.
      * reflexivity.
    + injection E as <-. split; [|now split]. cbn. intros u n l. destruct (Nat.eqb u t); [discriminate|apply I1].
Qed.

Lemma inv0 : inv clock0.
Proof. split; [discriminate|]. split; [intros v []|]. split; [constructor|reflexivity]. Qed.

Lemma run_inv l : forall c c', inv c -> run c l = Ok c' -> inv c'.
Proof.
  induction l as [|o l IH]; intros c c' I E; cbn [run] in E; [now injection E as <-|].
  unfold bind in E. destruct (step c o) as [c1|] eqn:S1; [|discriminate]. eapply IH; [eapply step_inv; eassumption|exact E].
Qed.

Lemma run_returned l : forall c c', run c l = Ok c' -> exists k, returned c' = k ++ returned c.
Proof.
  induction l as [|o l IH]; intros c c' E; cbn [run] in E; [injection E as <-; now exists []|].
  unfold bind in E. destruct (step c o) as [c1|] eqn:S1; [|discriminate].
  destruct (IH _ _ E) as [k K].
  assert (exists k1, returned c1 = k1 ++ returned c) as [k1 K1].
  { destruct o as [t raw|t|t|t]; cbn [step] in S1; cbn zeta in S1.
    - destruct (thread c t); injection S1 as <-; now exists [].
    - injection S1 as <-; now exists [].
    - destruct (thread c t) as [|now|now last]; try (injection S1 as <-; now exists []).
      destruct (now <? last_read c); [|injection S1 as <-; now exists []].
      unfold c_add64, bind in S1. destruct (in_int64b _); [|discriminate]. injection S1 as <-; now exists [].
    - destruct (thread c t) as [|now|now last]; try (injection S1 as <-; now exists []).
      destruct (last_read c =? last); injection S1 as <-; [now exists [(t, now)]|now exists []]. }
  exists (k ++ k1). now rewrite K, K1, app_assoc.
Qed.

(** C50: for any number of threads, any interleaving of their steps and any
    readings of the platform clock (which may go backwards), the values returned
    never decrease, in the order in which the calls return. *)
Theorem C50_monotone l c :
  run clock0 l = Ok c ->
  forall i j a b, (i <= j)%nat -> nth_error (readings c) i = Some a -> nth_error (readings c) j = Some b -> a <= b.
Proof.
  intros E. destruct (run_inv l _ _ inv0 E) as (_ & _ & S1 & _). unfold readings.
  generalize dependent (map snd (returned c)). clear. intros l S1.
  assert (S2 : StronglySorted Z.le (rev l)).
  { clear - S1. induction S1 as [|v l S1 IH F]; [constructor|]. cbn [rev].
    assert (G : forall k w, StronglySorted Z.le k -> Forall (fun x => x <= w) k -> StronglySorted Z.le (k ++ [w])).
    { intros k w H Hw. induction H as [|x k H IHk Hx]; cbn [app]; [repeat constructor|].
      inversion Hw; subst. constructor; [now apply IHk|]. apply Forall_app. split; [exact Hx|]. constructor; [assumption|constructor]. }
    apply G; [exact IH|]. apply Forall_rev. eapply Forall_impl; [|exact F]. intros; cbv beta in *; lia. }
  clear S1. induction S2 as [|x k S2 IH F]; intros i j a b Hij Ha Hb; [destruct i; discriminate|].
  destruct i as [|i], j as [|j]; cbn [nth_error] in *; try lia.
  - injection Ha as <-. injection Hb as <-. lia.
  - injection Ha as <-. apply nth_error_In in Hb. rewrite Forall_forall in F. now apply F.
  - eapply (IH i j); [lia|eassumption|eassumption].
Qed.

(** C50: in particular a call that begins after another one has returned does not
    return less. *)
Theorem C50_calls l1 l2 c1 c2 a b t u rest :
  run clock0 l1 = Ok c1 -> run c1 l2 = Ok c2 ->
  returned c1 = (t, a) :: rest -> (exists more, returned c2 = (u, b) :: more ++ returned c1) -> a <= b.
Proof.
  intros E1 E2 R1 [more R2]. pose proof (run_inv l1 _ _ inv0 E1) as I1. destruct (run_inv l2 _ _ I1 E2) as (_ & _ & S1 & _).
  rewrite R2, R1 in S1. cbn [map snd] in S1. inversion S1 as [|? ? _ F]; subst. rewrite Forall_forall in F.
  assert (b >= a); [|lia]. apply F. rewrite map_app. apply in_or_app. right. now left.
Qed.

(** One call that is not interrupted returns the reading of the platform clock,
    or one nanosecond more than the last value returned if the reading is
    behind it. *)
Theorem C50_sequential c t raw c' :
  thread c t = Idle -> run c [Read t raw; Load t; Cas t] = Ok c' ->
  exists v, returned c' = (t, v) :: returned c /\ last_read c' = v /\ v = (if raw <? last_read c then last_read c + 1 else raw).
Proof.
  intros T E. cbn [run step] in E. rewrite T in E. cbn [bind set_pc thread last_read returned] in E.
  rewrite !Nat.eqb_refl in E. cbn zeta in E. destruct (raw <? last_read c) eqn:L.
  - unfold c_add64 in E. destruct (in_int64b _); [|discriminate]. cbn [bind set_pc thread last_read returned] in E.
    rewrite !Nat.eqb_refl in E. cbn [last_read] in E. rewrite Z.eqb_refl in E. cbn [bind] in E. injection E as <-. cbn. eauto.
  - cbn [bind set_pc thread last_read returned] in E. rewrite !Nat.eqb_refl in E. cbn [last_read] in E. rewrite Z.eqb_refl in E.
    cbn [bind] in E. injection E as <-. cbn. eauto.
Qed.

(** The documentation promises strictly increasing values (clock.h:30-32): two
    calls that read the same time of the platform clock both return it. *)
Theorem C50_strict_refuted : exists l c a, run clock0 l = Ok c /\ readings c = [a; a].
Proof.
  exists [Read 0 1000; Load 0; Cas 0; Read 1 1000; Load 1; Cas 1]. do 2 eexists. split; [reflexivity|reflexivity].
Qed.

(** The only undefined step is one after the largest time has been returned. *)
Theorem C50_defined c o : in_int64 (last_read c) -> step c o = UB -> last_read c = LLONG_MAX.
Proof.
  intros H E. destruct o as [t raw|t|t|t]; cbn [step] in E; cbn zeta in E; destruct (thread c t) as [|now|now last]; try discriminate.
  - destruct (now <? last_read c); [|discriminate]. unfold c_add64, bind, in_int64b in E.
    unfold in_int64, LLONG_MIN, LLONG_MAX in *. destruct ((-9223372036854775808 <=? last_read c + 1) && (last_read c + 1 <=? 9223372036854775807)) eqn:K; [discriminate|]. lia.
  - destruct (last_read c =? last); discriminate.
Qed.

(** Two threads race while the platform clock jumps back. *)
Example C50_ex : exists c,
  run clock0 [Read 0 1000; Read 1 990; Load 1; Load 0; Cas 0; Cas 1; Load 1; Cas 1; Read 0 500; Load 0; Cas 0] = Ok c
  /\ readings c = [1000; 1001; 1002].
Proof. eexists. split; [reflexivity|reflexivity]. Qed.

Print Assumptions C50_monotone.
Print Assumptions C50_calls.
Print Assumptions C50_sequential.
Print Assumptions C50_strict_refuted.
Print Assumptions C50_defined.
