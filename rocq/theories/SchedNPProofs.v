(** Proofs about the non-preemptive scheduler. *)
From Verif Require Import Base SchedSpec SchedNP.
From Coq Require Import Permutation.
Open Scope nat_scope.

Definition is_acq (p : pc) : bool := match p with Acquiring => true | _ => false end.
Definition is_adv (p : pc) : bool := match p with Advancing => true | _ => false end.
Definition runs (p : pc) : option reaction := match p with Running r => Some r | _ => None end.
Definition elt (o : option reaction) : list reaction := match o with Some r => [r] | None => [] end.

Section Proofs.
Variables (n top : nat) (lvl : reaction -> nat) (size : nat -> nat) (rs : list reaction).
Hypothesis Hn : 1 <= n.
Hypothesis Hrs : NoDup rs.
Hypothesis Htop : forall r, In r rs -> lvl r <= top.
Hypothesis Hsize : forall l, size l = List.length (filter (fun r => lvl r =? l) rs).
Hypothesis Hpos : forall l, l <= top -> 0 < size l.

Definition qlist (s : sched) (l : nat) : list reaction := flat_map (fun i => elt (slot s l i)) (seq 0 (size l)).

Record inv (s : sched) (o : observed) : Prop := {
  i_stop : should_stop s = false;
  i_slot : forall l i, slot s l i <> None <-> (Z.of_nat i < index s l)%Z;
  i_room : forall l, (index s l <= Z.of_nat (size l))%Z;
  i_lvl : forall l i r, slot s l i = Some r -> lvl r = l /\ In r rs /\ queued s r = true;
  i_uniq : forall l i j r, slot s l i = Some r -> slot s l j = Some r -> i = j;
  i_run : forall w r, pcs s w = Running r -> queued s r = true /\ In r rs /\ lvl r = pred (next s) /\ forall l i, slot s l i <> Some r;
  i_run2 : forall w v r, pcs s w = Running r -> pcs s v = Running r -> w = v;
  i_queued : forall r, queued s r = true -> (exists i, slot s (lvl r) i = Some r) \/ exists w, pcs s w = Running r;
  i_out : forall w, n <= w -> pcs s w = Get;
  i_count : count is_acq (pcs s) n + count is_adv (pcs s) n = idle s + permits s;
  i_adv : forall w, pcs s w = Advancing -> S (count is_acq (pcs s) n) = n /\ permits s = 0 /\ (0 < next s -> index s (pred (next s)) = 0%Z);
  i_cur : (forall w, pcs s w <> Advancing) -> 1 <= next s /\ executing s = next s - 1;
  i_free : (forall w, pcs s w <> Advancing) -> idle s < n;
  i_next : next s <= S top;
  i_low : forall l, l < pred (next s) -> index s l = 0%Z;
  i_high : forall l, next s <= l -> (0 <= index s l)%Z;
  i_idle : forall w, pcs s w = Idling -> (index s (pred (next s)) < 0)%Z;
  i_end : forall w, pcs s w <> Ended;
  i_level : level o = pred (next s);
  i_busy : forall w, busy o w = runs (pcs s w);
  i_pend : forall l, Permutation (pending o l) (qlist s l) }.

Lemma qlist_in s l r : In r (qlist s l) <-> exists i, i < size l /\ slot s l i = Some r.
Proof.
  unfold qlist. rewrite in_flat_map. split.
  - intros (i & Hi & Hr). apply in_seq in Hi. exists i. split; [lia|]. destruct (slot s l i); cbn in Hr; [destruct Hr as [->|[]]; reflexivity|destruct Hr].
  - intros (i & Hi & E). exists i. split; [apply in_seq; lia|]. rewrite E. now left.
Qed.

Lemma inv_slot_size s o : inv s o -> forall l i r, slot s l i = Some r -> i < size l.
Proof. intros I l i r E. assert (Z.of_nat i < index s l)%Z by (apply (i_slot _ _ I); congruence). pose proof (i_room _ _ I l). lia. Qed.

Lemma flat_nodup (f : nat -> option reaction) k :
  (forall i j r, f i = Some r -> f j = Some r -> i = j) -> NoDup (flat_map (fun i => elt (f i)) (seq 0 k)).
Proof.
  intros U. induction k as [|k IH]; [constructor|]. rewrite seq_S, flat_map_app. cbn. rewrite app_nil_r.
  destruct (f k) as [r|] eqn:E; cbn; [|now rewrite app_nil_r]. apply NoDup_Add with (a := r) (l := flat_map (fun i => elt (f i)) (seq 0 k)).
  - apply Add_app_comm || (rewrite <- (app_nil_r (flat_map _ _)) at 1; apply Add_app).
  - split; [exact IH|]. intros H. apply in_flat_map in H. destruct H as (j & Hj & Hr). apply in_seq in Hj. destruct (f j) eqn:Ej; cbn in Hr; [|destruct Hr].
    destruct Hr as [->|[]]. pose proof (U _ _ _ E Ej). lia.
Qed.

(** The number of reactions in the queue of a level. *)
Lemma flat_full (f : nat -> option reaction) k : (forall i, i < k -> f i <> None) -> List.length (flat_map (fun i => elt (f i)) (seq 0 k)) = k.
Proof.
  induction k as [|k IH]; intros H; [reflexivity|]. rewrite seq_S, flat_map_app, app_length. cbn. rewrite IH by auto. specialize (H k ltac:(lia)). destruct (f k); [cbn; lia|congruence].
Qed.

Lemma room s o r : inv s o -> In r rs -> queued s r = false -> (0 <= index s (lvl r))%Z -> Z.to_nat (index s (lvl r)) < size (lvl r).
Proof.
  intros I Hr Q P. set (l := lvl r) in *. set (k := Z.to_nat (index s l)).
  assert (L : List.length (r :: flat_map (fun i => elt (slot s l i)) (seq 0 k)) <= List.length (filter (fun r => lvl r =? l) rs)).
  { apply NoDup_incl_length.
    - constructor; [|apply flat_nodup; apply (i_uniq _ _ I)]. intros H. apply in_flat_map in H. destruct H as (j & _ & Hj).
      destruct (slot s l j) eqn:E; cbn in Hj; [|destruct Hj]. destruct Hj as [->|[]]. destruct (i_lvl _ _ I _ _ _ E) as (_ & _ & Q'). congruence.
    - intros x [<-|Hx]; apply filter_In; [split; [exact Hr|apply Nat.eqb_refl]|]. apply in_flat_map in Hx. destruct Hx as (j & _ & Hj).
      destruct (slot s l j) eqn:E; cbn in Hj; [|destruct Hj]. destruct Hj as [->|[]]. destruct (i_lvl _ _ I _ _ _ E) as (E' & H' & _). split; [exact H'|]. now apply Nat.eqb_eq. }
  cbn [List.length] in L. rewrite flat_full, <- Hsize in L; [lia|]. intros i Hi. apply (i_slot _ _ I). lia.
Qed.

Definition with_pending (o : observed) (p : nat -> list reaction) : observed := mkObserved p (level o) (busy o).

Lemma trigger_inv s o r : inv s o -> In r rs -> (0 <= index s (lvl r))%Z -> pred (next s) <= lvl r ->
  (forall w, pcs s w = Advancing -> next s <= lvl r) -> (forall w, pcs s w <> Running r) ->
  exists s', trigger top lvl size s r = Some s' /\ inv s' (with_pending o (add lvl (pending o) r)) /\
    next s' = next s /\ pcs s' = pcs s /\ executing s' = executing s /\ (forall l, (0 <= index s l -> 0 <= index s' l)%Z).
Proof.
  intros I Hr P Lo Ad Nr. unfold trigger. destruct (queued s r) eqn:Q.
  - exists s. split; [reflexivity|]. split; [|auto 6].
    assert (with_pending o (add lvl (pending o) r) = o) as ->; [|exact I].
    unfold add. replace (existsb (Nat.eqb r) (pending o (lvl r))) with true; [destruct o; reflexivity|].
    symmetry. apply existsb_exists. exists r. split; [|apply Nat.eqb_refl]. destruct (i_queued _ _ I r Q) as [(i & E)|(w & E)]; [|elim (Nr w E)].
    eapply Permutation_in; [symmetry; apply (i_pend _ _ I)|]. apply qlist_in. exists i. split; [eapply inv_slot_size; eassumption|exact E].
  - pose proof (room s o r I Hr Q P) as Rm. replace (0 <=? index s (lvl r))%Z with true by lia.
    replace (Z.to_nat (index s (lvl r)) <? size (lvl r)) with true by (symmetry; now apply Nat.ltb_lt).
    replace (lvl r <=? top) with true by (symmetry; apply Nat.leb_le; auto). cbn [andb].
    set (l0 := lvl r) in *. set (k := Z.to_nat (index s l0)) in *. eexists. split; [reflexivity|].
    assert (Nk : slot s l0 k = None). { destruct (slot s l0 k) eqn:E; [|reflexivity]. assert (slot s l0 k <> None) as H by congruence. apply (i_slot _ _ I) in H. lia. }
    assert (Fresh : forall l i, slot s l i <> Some r). { intros l i E. destruct (i_lvl _ _ I _ _ _ E) as (_ & _ & H). congruence. }
    split.
    2:{ cbn. repeat split. intros l H. unfold set_nat. destruct (Nat.eqb_spec l l0); [lia|exact H]. }
    split; cbn [should_stop slot index queued pcs next executing idle permits with_pending level busy pending].
    + apply (i_stop _ _ I).
    + intros l i. unfold set_nat. destruct (Nat.eqb_spec l l0) as [->|]; [|apply (i_slot _ _ I)].
      destruct (Nat.eqb_spec i k) as [->|Ni]; [split; [lia|discriminate]|]. rewrite (i_slot _ _ I). lia.
    + intros l. unfold set_nat. destruct (Nat.eqb_spec l l0) as [->|]; [lia|apply (i_room _ _ I)].
    + intros l i x. unfold set_nat. destruct (Nat.eqb_spec l l0) as [->|].
      * destruct (Nat.eqb_spec i k) as [->|Ni]; [intros [= <-]; rewrite Nat.eqb_refl; auto|]. intros E. destruct (i_lvl _ _ I _ _ _ E) as (A & B & C). rewrite C. destruct (Nat.eqb x r); auto.
      * intros E. destruct (i_lvl _ _ I _ _ _ E) as (A & B & C). rewrite C. destruct (Nat.eqb x r); auto.
    + intros l i j x. unfold set_nat. destruct (Nat.eqb_spec l l0) as [->|]; [|apply (i_uniq _ _ I)].
      destruct (Nat.eqb_spec i k) as [->|Ni], (Nat.eqb_spec j k) as [->|Nj]; auto.
      * intros [= <-] E. elim (Fresh _ _ E).
      * intros E [= <-]. elim (Fresh _ _ E).
      * apply (i_uniq _ _ I).
    + intros w x E. destruct (i_run _ _ I _ _ E) as (A & B & C & D). assert (x <> r) by (intros ->; elim (Nr w E)).
      split; [unfold set_nat; destruct (Nat.eqb x r); auto|]. split; [exact B|]. split; [exact C|].
      intros l i. unfold set_nat. destruct (Nat.eqb l l0); [|apply D]. destruct (Nat.eqb i k); [congruence|apply D].
    + apply (i_run2 _ _ I).
    + intros x. unfold set_nat at 1. destruct (Nat.eqb_spec x r) as [->|Nx].
      * intros _. left. exists k. fold l0. now rewrite !set_nat_eq.
      * intros Qx. destruct (i_queued _ _ I x Qx) as [(i & E)|H]; [left|right; exact H]. exists i. unfold set_nat. destruct (Nat.eqb_spec (lvl x) l0) as [El|]; [|exact E].
        destruct (Nat.eqb_spec i k) as [->|]; [rewrite El in E; congruence|rewrite <- El; exact E].
    + apply (i_out _ _ I).
    + apply (i_count _ _ I).
    + intros w E. destruct (i_adv _ _ I _ E) as (A & B & C). split; [exact A|]. split; [exact B|]. intros H. rewrite set_nat_neq; [auto|]. specialize (Ad w E). lia.
    + apply (i_cur _ _ I).
    + apply (i_free _ _ I).
    + apply (i_next _ _ I).
    + intros l H. rewrite set_nat_neq by lia. now apply (i_low _ _ I).
    + intros l H. unfold set_nat. destruct (Nat.eqb_spec l l0); [lia|now apply (i_high _ _ I)].
    + intros w E. pose proof (i_idle _ _ I w E) as H. destruct (Nat.eq_dec (pred (next s)) l0) as [E0|N0]; [rewrite E0 in H; lia|]. now rewrite set_nat_neq.
    + apply (i_end _ _ I).
    + apply (i_level _ _ I).
    + apply (i_busy _ _ I).
    + intros l. unfold add. fold l0. replace (existsb (Nat.eqb r) (pending o l0)) with false.
      2:{ symmetry. apply not_true_is_false. intros H. apply existsb_exists in H. destruct H as (x & Hx & Ex). apply Nat.eqb_eq in Ex. subst x.
          eapply Permutation_in in Hx; [|apply (i_pend _ _ I)]. apply qlist_in in Hx. destruct Hx as (i & _ & E). elim (Fresh _ _ E). }
      unfold qlist. cbn [slot]. destruct (Nat.eq_dec l l0) as [->|Nl].
      * rewrite !set_nat_eq. rewrite (i_pend _ _ I). unfold qlist.
        pose proof (flat_swap (fun i => elt (set_nat (slot s l0) k (Some r) i)) (fun i => elt (slot s l0 i)) (size l0) k Rm) as F.
        cbn beta in F. rewrite set_nat_eq, Nk in F. cbn [elt app] in F. symmetry. apply F.
        intros j Hj. now rewrite set_nat_neq.
      * rewrite !set_nat_neq by auto. apply (i_pend _ _ I).
Qed.

Lemma trigger_all_inv ts : forall s o, inv s o -> incl ts rs -> (forall r, In r ts -> (0 <= index s (lvl r))%Z) -> (forall r, In r ts -> pred (next s) <= lvl r) ->
  (forall w r, In r ts -> pcs s w = Advancing -> next s <= lvl r) -> (forall w r, pcs s w <> Running r) ->
  exists s', trigger_all top lvl size s ts = Some s' /\ inv s' (with_pending o (fold_left (add lvl) ts (pending o))).
Proof.
  induction ts as [|r ts IH]; intros s o I Inc P Lo Ad Nr; cbn [trigger_all fold_left].
  - exists s. split; [reflexivity|]. destruct o; exact I.
  - destruct (trigger_inv s o r I) as (s1 & -> & I1 & E1 & E2 & E3 & E4); auto.
    { apply Inc; now left. } { apply P; now left. } { apply Lo; now left. } { intros w E. apply (Ad w r); [now left|exact E]. }
    destruct (IH s1 _ I1) as (s2 & E & I2).
    { intros x Hx. apply Inc. now right. } { intros x Hx. apply E4, P. now right. } { intros x Hx. rewrite E1. apply Lo. now right. }
    { intros w x Hx. rewrite E1, E2. apply Ad. now right. } { intros w x. rewrite E2. apply Nr. }
    exists s2. split; [exact E|exact I2].
Qed.

Lemma inv_empty : inv empty (observed0 lvl []).
Proof.
  split; cbn; try (intros; discriminate); try (intros; lia); auto.
  - intros l i. split; [congruence|lia].
  - rewrite !count_const. reflexivity.
  - intros l. unfold qlist. cbn. induction (size l) as [|k IH]; [constructor|]. rewrite seq_S, flat_map_app. cbn. now rewrite app_nil_r.
Qed.

Lemma init_inv ts : incl ts rs -> exists s, init top lvl size ts = Some s /\ inv s (observed0 lvl ts).
Proof.
  intros Inc. destruct (trigger_all_inv ts empty _ inv_empty Inc) as (s & E & I); cbn; try (intros; discriminate); try (intros; lia).
  exists s. split; [exact E|exact I].
Qed.

(** ** The steps of the scheduler. *)
Ltac fields := cbn [should_stop slot index queued pcs next executing idle permits set_pc notify level busy pending] in *.

Lemma pcs_dec (s : sched) w p : set_nat (pcs s) w p w = p.
Proof. apply set_nat_eq. Qed.

(** After the stop: nothing happens any more and nobody is stuck. *)
Record inv_stop (s : sched) : Prop := {
  t_stop : should_stop s = true;
  t_pcs : forall w, pcs s w = Get \/ pcs s w = Acquiring \/ pcs s w = Ended;
  t_out : forall w, n <= w -> pcs s w = Get;
  t_permits : count is_acq (pcs s) n <= permits s }.

Lemma set_pcs_cases s w p v (Q : pc -> Prop) : (v = w -> Q p) -> (v <> w -> Q (pcs s v)) -> Q (set_nat (pcs s) w p v).
Proof. intros A B. unfold set_nat. destruct (Nat.eqb_spec v w); auto. Qed.

Lemma adv_others s o w : inv s o -> pcs s w = Advancing -> forall v, v < n -> v <> w -> pcs s v = Acquiring.
Proof.
  intros I E v Hv N. destruct (i_adv _ _ I _ E) as (A & _).
  assert (Hw : w < n). { destruct (Nat.lt_ge_cases w n); [assumption|]. rewrite (i_out _ _ I w) in E by lia. discriminate. }
  pose proof (count_but_one is_acq (pcs s) n w v A Hw) as C. rewrite E in C. specialize (C eq_refl Hv N). destruct (pcs s v); cbn in C; congruence.
Qed.
Lemma adv_not_running s o w : inv s o -> pcs s w = Advancing -> forall v r, pcs s v <> Running r.
Proof.
  intros I E v r R. destruct (Nat.lt_ge_cases v n) as [L|L]; [|rewrite (i_out _ _ I v L) in R; discriminate].
  destruct (Nat.eq_dec v w) as [->|N]; [congruence|]. rewrite (adv_others s o w I E v L N) in R. discriminate.
Qed.
Lemma adv_unique s o w v : inv s o -> pcs s w = Advancing -> pcs s v = Advancing -> v = w.
Proof.
  intros I E F. destruct (Nat.eq_dec v w) as [|N]; [assumption|]. destruct (Nat.lt_ge_cases v n) as [L|L]; [|rewrite (i_out _ _ I v L) in F; discriminate].
  rewrite (adv_others s o w I E v L N) in F. discriminate.
Qed.
Lemma count_adv_1 s o w : inv s o -> pcs s w = Advancing -> count is_adv (pcs s) n = 1.
Proof.
  intros I E. assert (Hw : w < n). { destruct (Nat.lt_ge_cases w n); [assumption|]. rewrite (i_out _ _ I w) in E by lia. discriminate. }
  pose proof (count_set is_adv (pcs s) n w Get Hw) as C. rewrite E in C. cbn in C.
  assert (count is_adv (set_nat (pcs s) w Get) n = 0); [|lia].
  rewrite (count_ext is_adv _ (fun _ => Get) n); [now rewrite count_const|]. intros v Hv. unfold set_nat. destruct (Nat.eqb_spec v w); [reflexivity|].
  rewrite (adv_others s o w I E v Hv) by assumption. reflexivity.
Qed.
Lemma count_adv_0 (s : sched) : (forall w, pcs s w <> Advancing) -> count is_adv (pcs s) n = 0.
Proof.
  intros H. rewrite (count_ext is_adv _ (fun _ => Get) n); [now rewrite count_const|]. intros v _. specialize (H v). destruct (pcs s v); cbn; congruence.
Qed.

Lemma lt_n s o w p : inv s o -> pcs s w = p -> p <> Get -> w < n.
Proof. intros I E N. destruct (Nat.lt_ge_cases w n); [assumption|]. rewrite (i_out _ _ I w) in E by lia. congruence. Qed.

Lemma no_adv s o w : inv s o -> w < n -> pcs s w <> Acquiring -> pcs s w <> Advancing -> forall v, pcs s v <> Advancing.
Proof.
  intros I Hw A B v E. destruct (Nat.eq_dec v w) as [->|N]; [contradiction|]. apply A. eapply adv_others; eauto.
Qed.

(** A worker moves on and reactions stay where they are. *)
Lemma inv_move s o w p idx' idle' permits' : inv s o -> w < n -> runs (pcs s w) = None -> runs p = None -> p <> Ended -> p <> Advancing ->
  (forall v, pcs s v <> Advancing) ->
  (forall l, idx' l = index s l \/ (l = pred (next s) /\ index s l <= 0 /\ idx' l <= index s l)%Z) ->
  (p = Idling -> (idx' (pred (next s)) < 0)%Z) ->
  count is_acq (set_nat (pcs s) w p) n = idle' + permits' -> idle' < n ->
  inv (mkSched idx' (slot s) (next s) (executing s) idle' permits' (queued s) (should_stop s) (set_nat (pcs s) w p)) o.
Proof.
  intros I Hw R1 R2 Ne Na Noadv Hidx Hidle Hc Hf.
  assert (Run : forall v r, set_nat (pcs s) w p v = Running r -> v <> w /\ pcs s v = Running r).
  { intros v r. unfold set_nat. destruct (Nat.eqb_spec v w) as [->|]; [intros ->; discriminate|auto]. }
  split; fields.
  - apply (i_stop _ _ I).
  - intros l i. rewrite (i_slot _ _ I). destruct (Hidx l) as [->|]; lia.
  - intros l. pose proof (i_room _ _ I l). destruct (Hidx l) as [->|]; lia.
  - apply (i_lvl _ _ I).
  - apply (i_uniq _ _ I).
  - intros v r H. apply Run in H. apply (i_run _ _ I v). tauto.
  - intros v u r A B. apply Run in A, B. apply (i_run2 _ _ I v u r); tauto.
  - intros r Q. destruct (i_queued _ _ I r Q) as [H|(v & H)]; [now left|right]. exists v. rewrite set_nat_neq; [exact H|]. intros ->. rewrite H in R1. discriminate.
  - intros v Hv. rewrite set_nat_neq by lia. now apply (i_out _ _ I).
  - assert (count is_adv (set_nat (pcs s) w p) n = 0); [|lia]. pose proof (count_adv_0 s Noadv). pose proof (count_set is_adv (pcs s) n w p Hw) as C.
    destruct (pcs s w); cbn in C, R1; destruct p; cbn in C; try congruence; lia.
  - intros v. unfold set_nat. destruct (Nat.eqb_spec v w); [congruence|]. intros E. elim (Noadv v E).
  - intros _. apply (i_cur _ _ I). exact Noadv.
  - intros _. exact Hf.
  - apply (i_next _ _ I).
  - intros l H. pose proof (i_low _ _ I l H). destruct (Hidx l) as [->|]; [assumption|lia].
  - intros l H. pose proof (i_high _ _ I l H). destruct (i_cur _ _ I Noadv). destruct (Hidx l) as [->|]; [assumption|lia].
  - intros v. unfold set_nat. destruct (Nat.eqb_spec v w) as [->|]; [auto|]. intros E. pose proof (i_idle _ _ I v E). destruct (Hidx (pred (next s))) as [->|]; [assumption|lia].
  - intros v. unfold set_nat. destruct (Nat.eqb v w); [exact Ne|apply (i_end _ _ I)].
  - apply (i_level _ _ I).
  - intros v. rewrite (i_busy _ _ I). unfold set_nat. destruct (Nat.eqb_spec v w) as [->|]; [congruence|reflexivity].
  - apply (i_pend _ _ I).
Qed.

Lemma count_acq_set s w p : w < n -> count is_acq (set_nat (pcs s) w p) n + (if is_acq (pcs s w) then 1 else 0) = count is_acq (pcs s) n + (if is_acq p then 1 else 0).
Proof. apply count_set. Qed.

Definition ok (o : observed) (out : outcome) : Prop :=
  match out with
  | Next s' es => exists o', accepts n top lvl o es = Some o' /\ (inv s' o' \/ inv_stop s')
  | Blocked => True
  | _ => False
  end.

Lemma step_get s o w : inv s o -> w < n -> pcs s w = Get -> ok o (step n top lvl size s (Step w)).
Proof.
  intros I Hw E. unfold step. replace (w <? n) with true by (symmetry; now apply Nat.ltb_lt). cbn [negb]. rewrite E, (i_stop _ _ I).
  assert (Noadv : forall v, pcs s v <> Advancing) by (eapply no_adv; eauto; congruence).
  destruct (i_cur _ _ I Noadv) as (N1 & Ex). replace (next s =? 0) with false by lia. cbn zeta. fields.
  replace (next s - 1) with (pred (next s)) in * by lia. rewrite Ex. set (l := pred (next s)) in *. set (i := (index s l - 1)%Z).
  destruct (Z.ltb_spec i 0) as [Li|Li].
  - unfold set_pc. fields. exists o. split; [reflexivity|]. left. rewrite <- Ex, Ex. rewrite <- (i_stop _ _ I). replace (mkSched _ _ _ l) with (mkSched (set_nat (index s) l i) (slot s) (next s) (executing s)) by now rewrite Ex.
    apply inv_move; auto; try congruence.
    + now rewrite E.
    + intros k. unfold set_nat. destruct (Nat.eqb_spec k l) as [->|]; [right; split; [reflexivity|lia]|now left].
    + intros _. fold l. rewrite set_nat_eq. exact Li.
    + pose proof (count_acq_set s w Idling Hw) as C. rewrite E in C. cbn in C. pose proof (i_count _ _ I). pose proof (count_adv_0 s Noadv). lia.
    + now apply (i_free _ _ I).
  - pose proof (i_room _ _ I l) as Rm. replace (Z.to_nat i <? size l) with true by (symmetry; apply Nat.ltb_lt; lia). cbn [negb].
    set (k := Z.to_nat i) in *. assert (slot s l k <> None) as Sk by (apply (i_slot _ _ I); lia). destruct (slot s l k) as [r|] eqn:Er; [clear Sk|congruence].
    destruct (i_lvl _ _ I _ _ _ Er) as (Lr & Inr & Qr). unfold ok. cbn [accepts accept]. rewrite (i_busy _ _ I), E, (i_level _ _ I). fold l. cbn [runs].
    assert (Hp : In r (pending o l)). { eapply Permutation_in; [symmetry; apply (i_pend _ _ I)|]. apply qlist_in. exists k. split; [lia|exact Er]. }
    destruct (remove_one_perm r _ Hp) as (rest & -> & Pm). replace (lvl r =? l) with true by (symmetry; now apply Nat.eqb_eq). replace (w <? n) with true by (symmetry; now apply Nat.ltb_lt). cbn [andb].
    eexists. split; [reflexivity|]. left.
    assert (Nrun : forall v, pcs s v <> Running r). { intros v H. destruct (i_run _ _ I _ _ H) as (_ & _ & _ & H'). elim (H' l k Er). }
    split; fields.
    + reflexivity.
    + intros l' j. unfold set_nat. destruct (Nat.eqb_spec l' l) as [->|]; [|apply (i_slot _ _ I)].
      destruct (Nat.eqb_spec j k) as [->|]; [split; [congruence|lia]|]. rewrite (i_slot _ _ I). lia.
    + intros l'. unfold set_nat. destruct (Nat.eqb_spec l' l) as [->|]; [lia|apply (i_room _ _ I)].
    + intros l' j x. unfold set_nat. destruct (Nat.eqb_spec l' l) as [->|]; [|apply (i_lvl _ _ I)]. destruct (Nat.eqb_spec j k); [discriminate|apply (i_lvl _ _ I)].
    + intros l' j j' x. unfold set_nat. destruct (Nat.eqb_spec l' l) as [->|]; [|apply (i_uniq _ _ I)]. destruct (Nat.eqb_spec j k); [discriminate|]. destruct (Nat.eqb_spec j' k); [discriminate|]. apply (i_uniq _ _ I).
    + intros v x. unfold set_nat at 1. destruct (Nat.eqb_spec v w) as [->|].
      * intros [= <-]. split; [exact Qr|]. split; [exact Inr|]. split; [exact Lr|]. intros l' j. unfold set_nat. destruct (Nat.eqb_spec l' l) as [->|Nl].
        -- destruct (Nat.eqb_spec j k); [discriminate|]. intros H. pose proof (i_uniq _ _ I _ _ _ _ H Er). contradiction.
        -- intros H. destruct (i_lvl _ _ I _ _ _ H) as (H' & _). congruence.
      * intros H. destruct (i_run _ _ I _ _ H) as (A & B & C & D). split; [exact A|]. split; [exact B|]. split; [exact C|]. intros l' j. unfold set_nat. destruct (Nat.eqb l' l); [|apply D]. destruct (Nat.eqb j k); [discriminate|apply D].
    + intros v u x. unfold set_nat. destruct (Nat.eqb_spec v w) as [->|], (Nat.eqb_spec u w) as [->|]; auto.
      * intros [= <-] H. elim (Nrun _ H).
      * intros H [= <-]. elim (Nrun _ H).
      * apply (i_run2 _ _ I).
    + intros x Q. destruct (Nat.eq_dec x r) as [->|Nx]; [right; exists w; apply set_nat_eq|].
      destruct (i_queued _ _ I x Q) as [(j & H)|(v & H)].
      * left. exists j. unfold set_nat. destruct (Nat.eqb_spec (lvl x) l) as [El|]; [|exact H]. destruct (Nat.eqb_spec j k) as [->|]; [congruence|rewrite <- El; exact H].
      * right. exists v. rewrite set_nat_neq; [exact H|congruence].
    + intros v Hv. rewrite set_nat_neq by lia. now apply (i_out _ _ I).
    + pose proof (count_acq_set s w (Running r) Hw) as C. pose proof (count_set is_adv (pcs s) n w (Running r) Hw) as C2. rewrite E in C, C2. cbn in C, C2. pose proof (i_count _ _ I). lia.
    + intros v. unfold set_nat. destruct (Nat.eqb_spec v w); [discriminate|]. intros H. elim (Noadv v H).
    + intros _. split; [exact N1|]. lia.
    + intros _. now apply (i_free _ _ I).
    + apply (i_next _ _ I).
    + intros l' H. rewrite set_nat_neq by lia. now apply (i_low _ _ I).
    + intros l' H. rewrite set_nat_neq by lia. now apply (i_high _ _ I).
    + intros v. unfold set_nat. destruct (Nat.eqb_spec v w); [discriminate|]. intros H. pose proof (i_idle _ _ I v H). fold l in H0. fold l. rewrite Nat.eqb_refl. lia.
    + intros v. unfold set_nat. destruct (Nat.eqb v w); [discriminate|apply (i_end _ _ I)].
    + reflexivity.
    + intros v. unfold set_nat. destruct (Nat.eqb v w); [reflexivity|apply (i_busy _ _ I)].
    + intros l'. unfold qlist. fields. destruct (Nat.eq_dec l' l) as [->|Nl]; [|rewrite !set_nat_neq by auto; apply (i_pend _ _ I)]. rewrite !set_nat_eq.
      apply (Permutation_cons_inv (a := r)). rewrite <- Pm, (i_pend _ _ I). unfold qlist.
      pose proof (flat_swap (fun j => elt (slot s l j)) (fun j => elt (set_nat (slot s l) k None j)) (size l) k ltac:(lia)) as F. cbn beta in F. rewrite set_nat_eq, Er in F. cbn [elt app] in F. apply F.
      intros j Hj. now rewrite set_nat_neq.
Qed.

Lemma step_idling s o w : inv s o -> w < n -> pcs s w = Idling -> ok o (step n top lvl size s (Step w)).
Proof.
  intros I Hw E. unfold step. replace (w <? n) with true by (symmetry; now apply Nat.ltb_lt). cbn [negb]. rewrite E.
  assert (Noadv : forall v, pcs s v <> Advancing) by (eapply no_adv; eauto; congruence).
  destruct (i_cur _ _ I Noadv) as (N1 & Ex). replace (next s =? 0) with false by lia. cbn zeta.
  pose proof (i_count _ _ I) as Ct. pose proof (count_adv_0 s Noadv) as C0.
  destruct (Nat.eqb_spec (S (idle s)) n) as [En|En].
  - exists o. split; [reflexivity|]. left. replace (next s - 1) with (pred (next s)) by lia.
    pose proof (i_idle _ _ I w E) as Li. set (l := pred (next s)) in *.
    pose proof (count_acq_set s w Get Hw) as C. rewrite E in C. cbn in C.
    assert (Cn : count is_acq (pcs s) n < n). { pose proof (count_le is_acq (pcs s) n). destruct (Nat.eq_dec (count is_acq (pcs s) n) n) as [Q|]; [|lia]. pose proof (count_all is_acq (pcs s) n Q w Hw) as Hq. rewrite E in Hq. discriminate. }
    assert (P0 : permits s = 0) by lia. assert (Ca : S (count is_acq (pcs s) n) = n) by lia.
    pose proof (count_acq_set s w Advancing Hw) as C1. rewrite E in C1. cbn in C1.
    pose proof (count_set is_adv (pcs s) n w Advancing Hw) as C2. rewrite E in C2. cbn in C2.
    assert (Oth : forall v, v < n -> v <> w -> pcs s v = Acquiring).
    { intros v Hv Nv. pose proof (count_but_one is_acq (pcs s) n w v Ca Hw) as H. rewrite E in H. specialize (H eq_refl Hv Nv). destruct (pcs s v); cbn in H; congruence. }
    assert (Run : forall v r, pcs s v <> Running r). { intros v r H. destruct (Nat.eq_dec v w) as [->|Nv]; [congruence|]. pose proof (lt_n s o v _ I H ltac:(discriminate)). rewrite Oth in H by auto. discriminate. }
    split; fields.
    + apply (i_stop _ _ I).
    + intros l' i. rewrite (i_slot _ _ I). unfold set_nat. destruct (Nat.eqb_spec l' l) as [->|]; lia.
    + intros l'. unfold set_nat. destruct (Nat.eqb_spec l' l) as [->|]; [lia|apply (i_room _ _ I)].
    + apply (i_lvl _ _ I).
    + apply (i_uniq _ _ I).
    + intros v r. unfold set_nat. destruct (Nat.eqb v w); [discriminate|]. intros H. elim (Run _ _ H).
    + intros v u r. unfold set_nat. destruct (Nat.eqb v w); [discriminate|]. intros H. elim (Run _ _ H).
    + intros r Q. destruct (i_queued _ _ I r Q) as [H|(v & H)]; [now left|]. elim (Run _ _ H).
    + intros v Hv. rewrite set_nat_neq by lia. now apply (i_out _ _ I).
    + lia.
    + intros v Hv. split; [lia|]. split; [exact P0|]. intros _. fold l. apply set_nat_eq.
    + intros H. elim (H w). apply set_nat_eq.
    + intros H. elim (H w). apply set_nat_eq.
    + apply (i_next _ _ I).
    + intros l' H. rewrite set_nat_neq by lia. now apply (i_low _ _ I).
    + intros l' H. rewrite set_nat_neq by lia. now apply (i_high _ _ I).
    + intros v. unfold set_nat at 1. destruct (Nat.eqb_spec v w); [discriminate|]. intros H. pose proof (lt_n s o v _ I H ltac:(discriminate)). rewrite Oth in H by auto. discriminate.
    + intros v. unfold set_nat. destruct (Nat.eqb v w); [discriminate|apply (i_end _ _ I)].
    + apply (i_level _ _ I).
    + intros v. rewrite (i_busy _ _ I). unfold set_nat. destruct (Nat.eqb_spec v w) as [->|]; [rewrite E; reflexivity|reflexivity].
    + apply (i_pend _ _ I).
  - exists o. split; [reflexivity|]. left. unfold set_pc. fields. apply inv_move; auto; try congruence.
    + now rewrite E.
    + pose proof (count_acq_set s w Acquiring Hw) as C. rewrite E in C. cbn in C. lia.
    + pose proof (i_free _ _ I Noadv). lia.
Qed.

Lemma step_acquiring s o w : inv s o -> w < n -> pcs s w = Acquiring -> ok o (step n top lvl size s (Step w)).
Proof.
  intros I Hw E. unfold step. replace (w <? n) with true by (symmetry; now apply Nat.ltb_lt). cbn [negb]. rewrite E.
  destruct (permits s) as [|k] eqn:Pk; [exact Logic.I|]. exists o. split; [reflexivity|]. left.
  assert (Noadv : forall v, pcs s v <> Advancing). { intros v H. destruct (i_adv _ _ I v H) as (_ & H' & _). lia. }
  apply inv_move; auto; try congruence.
  - now rewrite E.
  - pose proof (count_acq_set s w Get Hw) as C. rewrite E in C. cbn in C. pose proof (i_count _ _ I). pose proof (count_adv_0 s Noadv). lia.
  - now apply (i_free _ _ I).
Qed.

Lemma qlist_nil s o l : inv s o -> (index s l <= 0)%Z -> qlist s l = [].
Proof.
  intros I L. destruct (qlist s l) as [|x q] eqn:E; [reflexivity|]. assert (In x (qlist s l)) as H by (rewrite E; now left).
  apply qlist_in in H. destruct H as (i & _ & H). assert (slot s l i <> None) as H1 by congruence. apply (i_slot _ _ I) in H1. lia.
Qed.

Lemma settled_adv s o w : inv s o -> pcs s w = Advancing -> 0 < next s -> settled n o = true.
Proof.
  intros I E P. destruct (i_adv _ _ I w E) as (_ & _ & Z0). unfold settled. rewrite (i_level _ _ I).
  assert (pending o (pred (next s)) = []) as ->. { apply Permutation_nil. rewrite <- (qlist_nil s o (pred (next s)) I); [symmetry; apply (i_pend _ _ I)|]. rewrite Z0 by assumption. lia. }
  cbn [is_nil andb]. apply forallb_forall. intros v _. rewrite (i_busy _ _ I). pose proof (adv_not_running s o w I E v) as R. destruct (pcs s v); try reflexivity. elim (R r). reflexivity.
Qed.

Lemma step_advancing s o w : inv s o -> w < n -> pcs s w = Advancing -> ok o (step n top lvl size s (Step w)).
Proof.
  intros I Hw E. unfold step. replace (w <? n) with true by (symmetry; now apply Nat.ltb_lt). cbn [negb]. rewrite E.
  destruct (Nat.eqb_spec (next s) (S top)) as [Et|Et]; [exact Logic.I|]. cbn zeta.
  pose proof (i_next _ _ I) as Hnx. set (l := next s) in *. replace (0 <? size l) with true by (symmetry; apply Nat.ltb_lt; apply Hpos; lia). cbn [negb]. fields.
  destruct (i_adv _ _ I w E) as (Ca & P0 & Z0).
  pose proof (adv_others s o w I E) as Oth. pose proof (adv_not_running s o w I E) as Run.
  set (o' := mkObserved (pending o) l (busy o)).
  assert (Acc : accepts n top lvl o (if l =? 0 then [] else [NextLevel]) = Some o').
  { destruct (Nat.eqb_spec l 0) as [El|Nl]; cbn [accepts accept].
    - unfold o'. replace l with (level o) by (rewrite (i_level _ _ I); fold l; lia). destruct o; reflexivity.
    - rewrite (settled_adv s o w I E) by (fold l; lia). rewrite (i_level _ _ I). fold l. replace (pred l <? top) with true by (symmetry; apply Nat.ltb_lt; lia). cbn [andb]. replace (S (pred l)) with l by lia. reflexivity. }
  assert (Idx : forall k, k < l -> index s k = 0%Z). { intros k Hk. destruct (Nat.eq_dec k (pred l)) as [->|]; [apply Z0; lia|apply (i_low _ _ I); fold l; lia]. }
  assert (Full : idle s = n). { pose proof (i_count _ _ I). pose proof (count_adv_1 s o w I E). lia. }
  destruct (slot s l 0) as [r|] eqn:Es.
  - exists o'. split; [exact Acc|]. left. unfold set_pc, notify. fields. replace (S l - 1) with l by lia.
    assert (Ip : (0 < index s l)%Z). { assert (slot s l 0 <> None) as H by congruence. apply (i_slot _ _ I) in H. lia. }
    set (k := Nat.min (idle s) (Z.to_nat (index s l))). assert (Hk : 1 <= k <= n) by (unfold k; lia).
    pose proof (count_acq_set s w Get Hw) as C1. pose proof (count_set is_adv (pcs s) n w Get Hw) as C2. rewrite E in C1, C2. cbn in C1, C2. pose proof (count_adv_1 s o w I E) as Cadv.
    split; fields.
    + apply (i_stop _ _ I).
    + apply (i_slot _ _ I).
    + apply (i_room _ _ I).
    + apply (i_lvl _ _ I).
    + apply (i_uniq _ _ I).
    + intros v x. unfold set_nat. destruct (Nat.eqb v w); [discriminate|]. intros H. elim (Run _ _ H).
    + intros v u x. unfold set_nat. destruct (Nat.eqb v w); [discriminate|]. intros H. elim (Run _ _ H).
    + intros x Q. destruct (i_queued _ _ I x Q) as [H|(v & H)]; [now left|]. elim (Run _ _ H).
    + intros v Hv. rewrite set_nat_neq by lia. now apply (i_out _ _ I).
    + lia.
    + intros v. unfold set_nat. destruct (Nat.eqb_spec v w); [discriminate|]. intros H. pose proof (lt_n s o v _ I H ltac:(discriminate)). rewrite Oth in H by auto. discriminate.
    + intros _. lia.
    + intros _. lia.
    + lia.
    + intros k' Hk'. apply Idx. cbn in Hk'. lia.
    + intros k' Hk'. apply (i_high _ _ I). fold l. lia.
    + intros v. unfold set_nat at 1. destruct (Nat.eqb_spec v w); [discriminate|]. intros H. pose proof (lt_n s o v _ I H ltac:(discriminate)). rewrite Oth in H by auto. discriminate.
    + intros v. unfold set_nat. destruct (Nat.eqb v w); [discriminate|apply (i_end _ _ I)].
    + reflexivity.
    + intros v. unfold o'. fields. rewrite (i_busy _ _ I). unfold set_nat. destruct (Nat.eqb_spec v w) as [->|]; [rewrite E; reflexivity|reflexivity].
    + apply (i_pend _ _ I).
  - exists o'. split; [exact Acc|]. left.
    assert (Ip : (index s l = 0)%Z). { pose proof (i_high _ _ I l ltac:(fold l; lia)). destruct (Z.eq_dec (index s l) 0) as [|N]; [assumption|]. assert (slot s l 0 <> None) as H1 by (apply (i_slot _ _ I); lia). congruence. }
    split; fields.
    + apply (i_stop _ _ I).
    + apply (i_slot _ _ I).
    + apply (i_room _ _ I).
    + apply (i_lvl _ _ I).
    + apply (i_uniq _ _ I).
    + intros v x H. elim (Run _ _ H).
    + intros v u x H. elim (Run _ _ H).
    + apply (i_queued _ _ I).
    + apply (i_out _ _ I).
    + apply (i_count _ _ I).
    + intros v H. split; [exact Ca|]. split; [exact P0|]. intros _. exact Ip.
    + intros H. elim (H w E).
    + intros H. elim (H w E).
    + lia.
    + intros k' Hk'. apply Idx. cbn in Hk'. lia.
    + intros k' Hk'. apply (i_high _ _ I). fold l. lia.
    + intros v H. pose proof (lt_n s o v _ I H ltac:(discriminate)). destruct (Nat.eq_dec v w) as [->|]; [congruence|]. rewrite Oth in H by auto. discriminate.
    + apply (i_end _ _ I).
    + reflexivity.
    + apply (i_busy _ _ I).
    + apply (i_pend _ _ I).
Qed.

Lemma step_triggers s o w r : inv s o -> allowed lvl rs s (Triggers w r) -> ok o (step n top lvl size s (Triggers w r)).
Proof.
  intros I A. cbn [step allowed] in *. destruct (pcs s w) as [|q| | | |] eqn:E; try exact Logic.I. destruct A as (A & Hr).
  destruct (i_run _ _ I _ _ E) as (_ & Hq & Lq & _). pose proof (lt_n s o w _ I E ltac:(discriminate)) as Hw.
  assert (Noadv : forall v, pcs s v <> Advancing) by (eapply no_adv; eauto; congruence). destruct (i_cur _ _ I Noadv) as (N1 & _).
  destruct (trigger_inv s o r I Hr) as (s' & -> & I' & _).
  - apply (i_high _ _ I). lia.
  - lia.
  - intros v H. elim (Noadv v H).
  - intros v H. destruct (i_run _ _ I _ _ H) as (_ & _ & L & _). lia.
  - cbn [ok accepts accept]. rewrite (i_busy _ _ I), E, (i_level _ _ I). cbn [runs]. replace (pred (next s) <? lvl r) with true by (symmetry; apply Nat.ltb_lt; lia).
    replace (lvl r <=? top) with true by (symmetry; apply Nat.leb_le; auto). cbn [andb]. eexists. split; [reflexivity|]. left. unfold with_pending in I'. rewrite (i_level _ _ I) in I'. exact I'.
Qed.

Lemma step_ends s o w : inv s o -> ok o (step n top lvl size s (Ends w)).
Proof.
  intros I. cbn [step]. destruct (pcs s w) as [|q| | | |] eqn:E; try exact Logic.I.
  destruct (i_run _ _ I _ _ E) as (Qq & Hq & Lq & Sq). rewrite Qq. pose proof (lt_n s o w _ I E ltac:(discriminate)) as Hw.
  assert (Noadv : forall v, pcs s v <> Advancing) by (eapply no_adv; eauto; congruence). destruct (i_cur _ _ I Noadv) as (N1 & Ex).
  unfold ok. cbn [accepts accept]. rewrite (i_busy _ _ I), E. cbn [runs]. eexists. split; [reflexivity|]. left.
  pose proof (count_acq_set s w Get Hw) as C1. pose proof (count_set is_adv (pcs s) n w Get Hw) as C2. rewrite E in C1, C2. cbn in C1, C2.
  assert (Run : forall v r, set_nat (pcs s) w Get v = Running r -> v <> w /\ pcs s v = Running r /\ r <> q).
  { intros v r. unfold set_nat. destruct (Nat.eqb_spec v w) as [->|Nv]; [discriminate|]. intros H. split; [exact Nv|]. split; [exact H|]. intros ->. elim Nv. apply (i_run2 _ _ I _ _ _ H E). }
  split; fields.
  - apply (i_stop _ _ I).
  - apply (i_slot _ _ I).
  - apply (i_room _ _ I).
  - intros l i r H. destruct (i_lvl _ _ I _ _ _ H) as (A & B & C). split; [exact A|]. split; [exact B|]. rewrite set_nat_neq; [exact C|]. intros ->. elim (Sq _ _ H).
  - apply (i_uniq _ _ I).
  - intros v r H. apply Run in H. destruct H as (_ & H & Nr). destruct (i_run _ _ I _ _ H) as (A & B & C & D). rewrite set_nat_neq by assumption. auto.
  - intros v u r A B. apply Run in A, B. apply (i_run2 _ _ I v u r); tauto.
  - intros r. unfold set_nat at 1. destruct (Nat.eqb_spec r q); [discriminate|]. intros Q. destruct (i_queued _ _ I r Q) as [H|(v & H)]; [now left|]. right. exists v. rewrite set_nat_neq; [exact H|congruence].
  - intros v Hv. rewrite set_nat_neq by lia. now apply (i_out _ _ I).
  - pose proof (i_count _ _ I). lia.
  - intros v. unfold set_nat. destruct (Nat.eqb_spec v w); [discriminate|]. intros H. elim (Noadv v H).
  - intros _. auto.
  - intros _. now apply (i_free _ _ I).
  - apply (i_next _ _ I).
  - apply (i_low _ _ I).
  - apply (i_high _ _ I).
  - intros v. unfold set_nat. destruct (Nat.eqb_spec v w); [discriminate|]. apply (i_idle _ _ I).
  - intros v. unfold set_nat. destruct (Nat.eqb v w); [discriminate|apply (i_end _ _ I)].
  - apply (i_level _ _ I).
  - intros v. unfold set_nat. destruct (Nat.eqb v w); [reflexivity|apply (i_busy _ _ I)].
  - apply (i_pend _ _ I).
Qed.

Lemma step_tag s o w stop ts : inv s o -> allowed lvl rs s (Tag w stop ts) -> ok o (step n top lvl size s (Tag w stop ts)).
Proof.
  intros I A. cbn [step allowed] in *. destruct (pcs s w) as [|q| | | |] eqn:E; try exact Logic.I.
  destruct (Nat.eqb_spec (next s) (S top)) as [Et|Et]; [|exact Logic.I].
  pose proof (lt_n s o w _ I E ltac:(discriminate)) as Hw. pose proof (adv_others s o w I E) as Oth. pose proof (adv_not_running s o w I E) as Run.
  destruct (i_adv _ _ I w E) as (Ca & P0 & Z0).
  destruct stop.
  - exists o. split; [reflexivity|]. right. pose proof (count_acq_set s w Get Hw) as C1. rewrite E in C1. cbn in C1. split; fields.
    + reflexivity.
    + intros v. unfold set_nat. destruct (Nat.eqb_spec v w); [auto|]. destruct (Nat.lt_ge_cases v n); [rewrite Oth; auto|rewrite (i_out _ _ I v); auto].
    + intros v Hv. rewrite set_nat_neq by lia. now apply (i_out _ _ I).
    + lia.
  - set (s0 := mkSched (index s) (slot s) 0 (executing s) (idle s) (permits s) (queued s) (should_stop s) (pcs s)).
    set (o0 := mkObserved (pending o) 0 (busy o)).
    assert (Idx : forall k, (0 <= index s k)%Z). { intros k. destruct (Nat.lt_trichotomy k top) as [H|[->|H]]; [rewrite (i_low _ _ I); [lia|rewrite Et; exact H]| |apply (i_high _ _ I); lia]. rewrite Et in Z0. cbn in Z0. rewrite Z0; lia. }
    assert (I0 : inv s0 o0).
    { split; unfold s0, o0; fields.
      - apply (i_stop _ _ I).
      - apply (i_slot _ _ I).
      - apply (i_room _ _ I).
      - apply (i_lvl _ _ I).
      - apply (i_uniq _ _ I).
      - intros v r H. elim (Run _ _ H).
      - apply (i_run2 _ _ I).
      - apply (i_queued _ _ I).
      - apply (i_out _ _ I).
      - apply (i_count _ _ I).
      - intros v H. split; [exact Ca|]. split; [exact P0|]. lia.
      - intros H. elim (H w E).
      - intros H. elim (H w E).
      - lia.
      - cbn. intros l H. lia.
      - intros l _. apply Idx.
      - intros v H. pose proof (lt_n s o v _ I H ltac:(discriminate)). destruct (Nat.eq_dec v w) as [->|]; [congruence|]. rewrite Oth in H by auto. discriminate.
      - apply (i_end _ _ I).
      - reflexivity.
      - apply (i_busy _ _ I).
      - apply (i_pend _ _ I). }
    destruct (trigger_all_inv ts s0 o0 I0 A) as (s' & -> & I'); unfold s0; fields; auto; try (intros; lia).
    unfold ok. cbn [accepts accept]. rewrite (settled_adv s o w I E) by lia. rewrite (i_level _ _ I), Et. cbn [pred]. rewrite Nat.eqb_refl.
    replace (forallb (fun r => lvl r <=? top) ts) with true by (symmetry; apply forallb_forall; intros r Hr; apply Nat.leb_le; auto). cbn [andb].
    eexists. split; [reflexivity|]. left. exact I'.
Qed.

Lemma step_stopped s o op : inv_stop s -> ok o (step n top lvl size s op) /\ match step n top lvl size s op with Next s' es => inv_stop s' /\ es = [] | _ => True end.
Proof.
  intros T. destruct op as [w|w r|w|w b ts]; cbn [step]; try (destruct (t_pcs _ T w) as [H|[H|H]]; rewrite H; split; exact Logic.I).
  destruct (Nat.ltb_spec w n) as [Hw|]; cbn [negb]; [|split; exact Logic.I].
  assert (G : forall p k, (p = Get \/ p = Acquiring \/ p = Ended) -> count is_acq (set_nat (pcs s) w p) n <= k ->
    inv_stop (mkSched (index s) (slot s) (next s) (executing s) (idle s) k (queued s) (should_stop s) (set_nat (pcs s) w p))).
  { intros p k Hp Hk. split; fields; [apply (t_stop _ T)| | |exact Hk].
    - intros v. unfold set_nat. destruct (Nat.eqb v w); [exact Hp|apply (t_pcs _ T)].
    - intros v Hv. rewrite set_nat_neq by lia. now apply (t_out _ T). }
  pose proof (t_permits _ T) as Pm.
  destruct (t_pcs _ T w) as [H|[H|H]]; rewrite H.
  - rewrite (t_stop _ T). pose proof (count_acq_set s w Ended Hw) as C. rewrite H in C. cbn in C. split; [exists o; split; [reflexivity|right]|split; [|reflexivity]]; (apply G; [auto|lia]).
  - destruct (permits s) as [|k] eqn:Pk; [split; exact Logic.I|]. pose proof (count_acq_set s w Get Hw) as C. rewrite H in C. cbn in C.
    split; [exists o; split; [reflexivity|right]|split; [|reflexivity]]; (apply G; [auto|lia]).
  - split; exact Logic.I.
Qed.

Lemma step_ok s o op : inv s o -> allowed lvl rs s op -> ok o (step n top lvl size s op).
Proof.
  intros I A. destruct op as [w|w r|w|w b ts].
  - destruct (Nat.ltb_spec w n) as [Hw|Hw]; [|cbn [step]; replace (w <? n) with false by (symmetry; now apply Nat.ltb_ge); exact Logic.I].
    destruct (pcs s w) eqn:E.
    + now apply step_get.
    + cbn [step]. rewrite E. destruct (negb _); exact Logic.I.
    + now apply step_idling.
    + now apply step_acquiring.
    + now apply step_advancing.
    + elim (i_end _ _ I w E).
  - now apply step_triggers.
  - now apply step_ends.
  - now apply step_tag.
Qed.

Lemma exec_ok s0 o0 s es : inv s0 o0 -> exec n top lvl size rs s0 s es ->
  exists o, accepts n top lvl o0 es = Some o /\ (inv s o \/ inv_stop s).
Proof.
  intros I0 X. induction X as [|s es op s' es' X IH A E]; [exists o0; split; [reflexivity|now left]|].
  destruct IH as (o & Ac & [I|T]).
  - pose proof (step_ok s o op I A) as K. rewrite E in K. destruct K as (o' & Ac' & I'). exists o'. split; [rewrite accepts_app, Ac; exact Ac'|exact I'].
  - destruct (step_stopped s o op T) as (_ & K). rewrite E in K. destruct K as (T' & ->). exists o. rewrite app_nil_r. auto.
Qed.

Lemma exec_defined s0 o0 s es op : inv s0 o0 -> exec n top lvl size rs s0 s es -> allowed lvl rs s op ->
  match step n top lvl size s op with OutOfBounds | ErrorExit => False | _ => True end.
Proof.
  intros I0 X A. destruct (exec_ok s0 o0 s es I0 X) as (o & _ & [I|T]).
  - pose proof (step_ok s o op I A) as K. destruct (step n top lvl size s op); exact K || exact Logic.I.
  - destruct (step_stopped s o op T) as (K & _). destruct (step n top lvl size s op); exact K || exact Logic.I.
Qed.

Lemma exec_live s0 o0 s es : inv s0 o0 -> exec n top lvl size rs s0 s es ->
  (forall w, w < n -> pcs s w = Ended) \/ exists op s' es', allowed lvl rs s op /\ step n top lvl size s op = Next s' es'.
Proof.
  intros I0 X. destruct (exec_ok s0 o0 s es I0 X) as (o & _ & [I|T]).
  - right. assert (Go : forall op, allowed lvl rs s op -> step n top lvl size s op <> Blocked -> exists op s' es', allowed lvl rs s op /\ step n top lvl size s op = Next s' es').
    { intros op A B. pose proof (step_ok s o op I A) as K. destruct (step n top lvl size s op) as [s' es'| | |] eqn:Es; [exists op, s', es'; auto|destruct K|destruct K|congruence]. }
    assert (H : forall w, w < n -> pcs s w <> Acquiring -> exists op s' es', allowed lvl rs s op /\ step n top lvl size s op = Next s' es').
    { intros w Hw Nq. assert (Wn : (w <? n) = true) by (now apply Nat.ltb_lt). destruct (pcs s w) as [|r| | | |] eqn:E; [| | |congruence| |elim (i_end _ _ I w E)].
      - apply (Go (Step w)); [exact Logic.I|]. cbn [step]. rewrite Wn, E. cbn [negb]. repeat (match goal with |- (if ?b then _ else _) <> _ => destruct b | |- (let _ := _ in _) <> _ => cbn zeta | |- match ?m with _ => _ end <> _ => destruct m end; try discriminate).
      - apply (Go (Ends w)); [exact Logic.I|]. cbn [step]. rewrite E. destruct (queued s r); discriminate.
      - apply (Go (Step w)); [exact Logic.I|]. cbn [step]. rewrite Wn, E. cbn [negb]. destruct (_ =? n); [destruct (_ =? 0)|]; discriminate.
      - destruct (Nat.eq_dec (next s) (S top)) as [Et|Et].
        + apply (Go (Tag w true [])); [intros x []|]. cbn [step]. rewrite E, Et, Nat.eqb_refl. discriminate.
        + apply (Go (Step w)); [exact Logic.I|]. cbn [step]. rewrite Wn, E. cbn [negb]. replace (next s =? S top) with false by (symmetry; now apply Nat.eqb_neq). cbn zeta. destruct (negb _); [discriminate|]. destruct (slot _ _ _); discriminate. }
    destruct (pcs s 0) as [|r| | | |] eqn:E0; try (apply (H 0); [lia|congruence]).
    destruct (permits s) as [|k] eqn:Pk.
    + (* somebody is not at the semaphore *)
      assert (exists w, w < n /\ pcs s w <> Acquiring) as (w & Hw & Nw); [|now apply (H w)].
      destruct (Nat.eq_dec (count is_acq (pcs s) n) n) as [All|NotAll].
      * exfalso. pose proof (count_all is_acq (pcs s) n All) as Al.
        assert (Noadv : forall v, pcs s v <> Advancing). { intros v Ev. pose proof (lt_n s o v _ I Ev ltac:(discriminate)) as Hv. specialize (Al v Hv). rewrite Ev in Al. discriminate. }
        pose proof (i_free _ _ I Noadv). pose proof (count_adv_0 s Noadv). pose proof (i_count _ _ I). lia.
      * clear - NotAll. revert NotAll. induction n as [|m IH]; [cbn; congruence|]. rewrite count_S. intros Nt. destruct (is_acq (pcs s m)) eqn:Em.
        -- destruct IH as (w & Hw & Nw); [lia|]. exists w. split; [lia|exact Nw].
        -- exists m. split; [lia|]. intros Q. rewrite Q in Em. discriminate.
    + apply (Go (Step 0)); [exact Logic.I|]. cbn [step]. replace (0 <? n) with true by (symmetry; apply Nat.ltb_lt; lia). cbn [negb]. rewrite E0, Pk. discriminate.
  - destruct (Nat.eq_dec (count (fun p => match p with Ended => true | _ => false end) (pcs s) n) n) as [All|NotAll].
    + left. intros w Hw. pose proof (count_all _ _ _ All w Hw) as H. cbn beta in H. destruct (pcs s w); congruence.
    + right. assert (exists w, w < n /\ pcs s w <> Ended) as (w & Hw & Nw).
      { clear - NotAll. revert NotAll. induction n as [|m IH]; [cbn; congruence|]. rewrite count_S. intros Nt. destruct (pcs s m) eqn:Em; try (exists m; split; [lia|congruence]).
        destruct IH as (w & Hw & Nw); [lia|]. exists w. split; [lia|exact Nw]. }
      exists (Step w). cbn [step]. replace (w <? n) with true by (symmetry; now apply Nat.ltb_lt). cbn [negb].
      destruct (t_pcs _ T w) as [H|[H|H]]; [| |congruence]; rewrite H.
      * rewrite (t_stop _ T). do 2 eexists. split; [exact Logic.I|reflexivity].
      * pose proof (t_permits _ T). assert (0 < count is_acq (pcs s) n) by (eapply count_pos; [exact Hw|rewrite H; reflexivity]). destruct (permits s); [lia|]. do 2 eexists. split; [exact Logic.I|reflexivity].
Qed.
End Proofs.
