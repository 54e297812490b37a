(** Proofs about the adaptive scheduler. *)
From Verif Require Import Base SchedSpec SchedAdaptive.
From Coq Require Import Permutation.
Open Scope nat_scope.

Definition active (p : pc) : bool := match p with Asleep false | Ended => false | _ => true end.
Definition runs (p : pc) : option reaction := match p with Running r => Some r | _ => None end.
Definition qlist (s : sched) (l u : nat) : list reaction := map (arr s l u) (seq 0 (Z.to_nat (cnt s l u))).
Definition with_pending (o : observed) (p : nat -> list reaction) : observed := mkObserved p (level o) (busy o).

(** ** Groups of workers *)
Lemma cond_of_le u c : cond_of u <= c <-> u < 2 ^ c.
Proof.
  unfold cond_of. destruct (Nat.eqb_spec u 0) as [->|N].
  - split; intros _; [|lia]. pose proof (Nat.pow_nonzero 2 c). lia.
  - pose proof (Nat.log2_lt_pow2 u c ltac:(lia)). lia.
Qed.
Lemma count_initial (P : nat -> bool) (f : nat -> nat) n m : (forall u, u < n -> P (f u) = (u <? m)) -> count P f n = Nat.min n m.
Proof.
  induction n as [|n IH]; intros H; [reflexivity|]. rewrite count_S, IH by auto. rewrite H by lia. destruct (Nat.ltb_spec n m); lia.
Qed.
Lemma cumsum_min n c : cumsum n c = Nat.min n (2 ^ c).
Proof. apply count_initial. intros u _. destruct (Nat.leb_spec (cond_of u) c), (Nat.ltb_spec u (2 ^ c)); try reflexivity; pose proof (cond_of_le u c); lia. Qed.
Lemma in_group n c u : u < n -> (cond_of u <=? c) = (u <? cumsum n c).
Proof.
  intros H. rewrite cumsum_min. destruct (Nat.leb_spec (cond_of u) c), (Nat.ltb_spec u (Nat.min n (2 ^ c))); try reflexivity; pose proof (cond_of_le u c); lia.
Qed.
Lemma cumsum_ge n k : 1 <= k <= n -> k <= cumsum n (cond_of (k - 1)).
Proof. intros H. rewrite cumsum_min. pose proof (proj1 (cond_of_le (k - 1) _) (le_n _)). lia. Qed.

Lemma count_but (P : pc -> bool) (f : nat -> pc) n w m : w < n -> P (f w) = true -> (forall v, v < n -> v <> w -> P (f v) = (v <? m)) ->
  count P f n = if m <=? w then S (Nat.min n m) else Nat.min n m.
Proof.
  revert w. induction n as [|n IH]; intros w H E A; [lia|]. rewrite count_S. destruct (Nat.eq_dec w n) as [->|N].
  - rewrite E. assert (count P f n = Nat.min n m) as ->.
    { clear - A. assert (B : forall v, v < n -> P (f v) = (v <? m)) by (intros; apply A; lia). clear A. induction n as [|n IH]; [reflexivity|].
      rewrite count_S, IH by auto. rewrite B by lia. destruct (Nat.ltb_spec n m); lia. }
    destruct (Nat.leb_spec m n); lia.
  - rewrite (IH w) by (auto; lia). rewrite A by lia. destruct (Nat.leb_spec m w), (Nat.ltb_spec n m); lia.
Qed.

Section Proofs.
Variables (n top : nat) (lvl : reaction -> nat) (size : nat -> nat) (hash : reaction -> nat) (rs : list reaction).
Hypothesis Hn : 1 <= n.
Hypothesis Htop : forall r, In r rs -> lvl r <= top.
Hypothesis Hsize : forall l, size l = List.length (filter (fun r => lvl r =? l) rs).
Hypothesis Hpos : forall l, l <= top -> 0 < size l.

Definition qall (s : sched) (l : nat) : list reaction := flat_map (qlist s l) (seq 0 n).

Record dinv (s : sched) (o : observed) : Prop := {
  d_perm : forall l, Permutation (pending o l) (qall s l);
  d_nodup : forall l, NoDup (pending o l);
  d_lvl : forall l r, In r (pending o l) -> lvl r = l /\ In r rs /\ queued s r = true;
  d_run : forall w r, pcs s w = Running r -> queued s r = true /\ In r rs /\ lvl r = current s /\ ~ In r (pending o (lvl r));
  d_run2 : forall w v r, pcs s w = Running r -> pcs s v = Running r -> w = v;
  d_queued : forall r, queued s r = true -> In r (pending o (lvl r)) \/ exists w, pcs s w = Running r;
  d_nums : forall l, l <= top -> 1 <= nums s l <= Nat.min (size l) n;
  d_over : forall l u, l <= top -> nums s l <= u -> (cnt s l u <= 0)%Z;
  d_other : forall l u, l <> current s -> (0 <= cnt s l u)%Z;
  d_low : forall l u, l < current s -> cnt s l u = 0%Z;
  d_cur : current s <= top;
  d_level : level o = current s;
  d_busy : forall w, busy o w = runs (pcs s w) }.

Definition stage (s : sched) : Prop :=
  match pcs s 0 with
  | Try v | Reset v => v < nums s (current s) /\ forall u, u < v -> (cnt s (current s) u <= 0)%Z
  | Locking | Finishing | Advancing | Asleep false => forall u, (cnt s (current s) u <= 0)%Z
  | _ => True
  end.
Definition snap_ok (s : sched) (w : nat) : Prop :=
  match pcs s w with
  | Try _ | Reset _ | Locking | Finishing => snap s w = counter s
  | Asleep false => snap s w <= counter s
  | Asleep true => snap s w < counter s /\ w < awakened s
  | _ => True
  end.
Definition holds (p : pc) : bool := match p with Finishing | Advancing => true | _ => false end.

Record cinv (s : sched) : Prop := {
  c_stop : should_stop s = false;
  c_out : forall w, n <= w -> pcs s w = Enter;
  c_end : forall w, pcs s w <> Ended;
  c_loose : (forall w, pcs s w <> Advancing) -> loose s = Z.of_nat (count active (pcs s) n) /\ (0 < loose s)%Z;
  c_adv : forall w, pcs s w = Advancing -> loose s = 0%Z /\ forall v, v < n -> v <> w -> pcs s v = Asleep false;
  c_hold : forall w, holder s = Some w <-> holds (pcs s w) = true;
  c_snap : forall w, w < n -> snap_ok s w;
  c_neg : forall u, (cnt s (current s) u < 0)%Z -> exists w, pcs s w = Reset u;
  c_reset : forall w u, pcs s w = Reset u -> (cnt s (current s) u <= 0)%Z;
  c_fin : forall w, pcs s w = Finishing -> (cnt s (current s) w <= 0)%Z;
  c_stage : stage s }.

Record inv (s : sched) (o : observed) : Prop := { i_d : dinv s o; i_c : cinv s }.

Record inv_stop (s : sched) : Prop := {
  t_stop : should_stop s = true;
  t_pcs : forall w, w < n -> pcs s w = Ended \/ (pcs s w = Asleep true /\ snap s w < counter s /\ w < awakened s);
  t_out : forall w, n <= w -> pcs s w = Enter;
  t_hold : holder s = None }.

Notation step := (step false n top lvl size hash).
Notation trigger := (trigger n top lvl size hash).
Notation trigger_all := (trigger_all n top lvl size hash).

Definition ok (o : observed) (out : outcome) : Prop :=
  match out with
  | Next s' es => exists o', accepts n top lvl o es = Some o' /\ (inv s' o' \/ inv_stop s')
  | Blocked => True
  | _ => False
  end.

Ltac fields := cbn [cnt arr current nums loose awakened counter snap holder queued should_stop pcs set_pc set_holder set_cnt set_loose level busy pending with_pending] in *.

Lemma lt_n s w p : cinv s -> pcs s w = p -> p <> Enter -> w < n.
Proof. intros I E N. destruct (Nat.lt_ge_cases w n); [assumption|]. rewrite (c_out _ I w) in E by lia. congruence. Qed.

Lemma adv_not_running s w : cinv s -> pcs s w = Advancing -> forall v r, pcs s v <> Running r.
Proof.
  intros I E v r R. pose proof (lt_n s v _ I R ltac:(discriminate)) as L. destruct (Nat.eq_dec v w) as [->|N]; [congruence|].
  destruct (c_adv _ I w E) as (_ & A). rewrite (A v L N) in R. discriminate.
Qed.
Lemma adv_unique s w v : cinv s -> pcs s w = Advancing -> pcs s v = Advancing -> v = w.
Proof.
  intros I E F. pose proof (lt_n s v _ I F ltac:(discriminate)) as L. destruct (Nat.eq_dec v w) as [|N]; [assumption|].
  destruct (c_adv _ I w E) as (_ & A). rewrite (A v L N) in F. discriminate.
Qed.
Lemma no_adv s w : cinv s -> w < n -> pcs s w <> Asleep false -> pcs s w <> Advancing -> forall v, pcs s v <> Advancing.
Proof.
  intros I Hw A B v E. destruct (Nat.eq_dec v w) as [->|N]; [contradiction|]. apply A. destruct (c_adv _ I v E) as (_ & F). apply F; auto.
Qed.

(** ** Reactions in the arrays *)
Lemma qall_same s s' l : arr s' = arr s -> (forall u, Z.to_nat (cnt s' l u) = Z.to_nat (cnt s l u)) -> qall s' l = qall s l.
Proof.
  intros A C. unfold qall. rewrite !flat_map_concat_map. f_equal. apply map_ext. intros u. unfold qlist. now rewrite A, C.
Qed.
Lemma qall_length s o l u : dinv s o -> u < n -> Z.to_nat (cnt s l u) <= List.length (pending o l).
Proof.
  intros D H. rewrite (Permutation_length (d_perm _ _ D l)). unfold qall. clear - H.
  induction n as [|m IH]; [lia|]. rewrite seq_S, flat_map_app, app_length. cbn. rewrite app_nil_r.
  destruct (Nat.eq_dec u m) as [->|]; [unfold qlist; rewrite map_length, seq_length; lia|specialize (IH ltac:(lia)); lia].
Qed.
Lemma pending_room s o l : dinv s o -> List.length (pending o l) <= size l.
Proof.
  intros D. rewrite Hsize. apply NoDup_incl_length; [apply (d_nodup _ _ D)|]. intros r Hr. destruct (d_lvl _ _ D l r Hr) as (A & B & _).
  apply filter_In. split; [exact B|]. now apply Nat.eqb_eq.
Qed.
Lemma pending_room_new s o r : dinv s o -> In r rs -> queued s r = false -> List.length (pending o (lvl r)) < size (lvl r).
Proof.
  intros D Hr Q. rewrite Hsize. change (List.length (r :: pending o (lvl r)) <= List.length (filter (fun x => lvl x =? lvl r) rs)). apply NoDup_incl_length.
  - constructor; [|apply (d_nodup _ _ D)]. intros H. destruct (d_lvl _ _ D _ _ H) as (_ & _ & F). congruence.
  - intros x [<-|Hx]; apply filter_In; [split; [exact Hr|apply Nat.eqb_refl]|]. destruct (d_lvl _ _ D _ x Hx) as (A & B & _). split; [exact B|now apply Nat.eqb_eq].
Qed.

(** A worker moves on; reactions stay where they are. *)
Lemma dinv_move s o s' : dinv s o -> arr s' = arr s -> current s' = current s -> nums s' = nums s -> queued s' = queued s ->
  (forall w, runs (pcs s' w) = runs (pcs s w)) -> (forall l u, l <> current s -> cnt s' l u = cnt s l u) ->
  (forall u, cnt s' (current s) u = cnt s (current s) u \/ (cnt s' (current s) u <= 0 /\ cnt s (current s) u <= 0)%Z) -> dinv s' o.
Proof.
  intros D Ea Ec En Eq Er Eo Eu.
  assert (R : forall w r, pcs s' w = Running r -> pcs s w = Running r). { intros w r E. specialize (Er w). rewrite E in Er. cbn in Er. destruct (pcs s w); cbn in Er; congruence. }
  split.
  - intros l. rewrite (qall_same s s'); [apply (d_perm _ _ D)|exact Ea|]. intros u. destruct (Nat.eq_dec l (current s)) as [->|N]; [|now rewrite Eo].
    destruct (Eu u) as [->|]; lia.
  - apply (d_nodup _ _ D).
  - rewrite Eq. apply (d_lvl _ _ D).
  - intros w r E. rewrite Eq, Ec. apply (d_run _ _ D w). auto.
  - intros w v r A B. apply (d_run2 _ _ D w v r); auto.
  - intros r Q. rewrite Eq in Q. destruct (d_queued _ _ D r Q) as [|(w & E)]; [auto|]. right. exists w. specialize (Er w). rewrite E in Er. cbn in Er. destruct (pcs s' w); cbn in Er; congruence.
  - rewrite En. apply (d_nums _ _ D).
  - intros l u L H. rewrite En in H. pose proof (d_over _ _ D l u L H). destruct (Nat.eq_dec l (current s)) as [->|N]; [|now rewrite Eo]. destruct (Eu u); lia.
  - intros l u N. rewrite Ec in N. rewrite Eo by exact N. now apply (d_other _ _ D).
  - intros l u L. rewrite Ec in L. rewrite Eo by lia. now apply (d_low _ _ D).
  - rewrite Ec. apply (d_cur _ _ D).
  - rewrite Ec. apply (d_level _ _ D).
  - intros w. rewrite Er. apply (d_busy _ _ D).
Qed.

Lemma runs_set (f : nat -> pc) w p : runs p = runs (f w) -> forall v, runs (set_nat f w p v) = runs (f v).
Proof. intros H v. unfold set_nat. destruct (Nat.eqb_spec v w) as [->|]; auto. Qed.

Definition nonadv (p : pc) : bool := match p with Advancing | Ended | Enter | Asleep _ => false | _ => true end.

(** One active worker goes to another active state within the level; counters that
    are not positive may change. *)
Lemma cinv_move s w p cnt' snap' h' : cinv s -> w < n -> active (pcs s w) = true -> active p = true -> pcs s w <> Advancing -> p <> Advancing ->
  (forall v, v <> w -> snap' v = snap s v) ->
  (forall u, (cnt s (current s) u <= 0 -> cnt' (current s) u <= 0)%Z) ->
  (forall u, (cnt' (current s) u < 0)%Z -> p = Reset u \/ exists v, v <> w /\ pcs s v = Reset u) ->
  (forall u, p = Reset u -> (cnt' (current s) u <= 0)%Z) -> (p = Finishing -> (cnt' (current s) w <= 0)%Z) ->
  (h' = if holds p then Some w else if holds (pcs s w) then None else holder s) ->
  (holds p = true -> holds (pcs s w) = false -> holder s = None) ->
  let s' := mkSched cnt' (arr s) (current s) (nums s) (loose s) (awakened s) (counter s) snap' h' (queued s) (should_stop s) (set_nat (pcs s) w p) in
  (w = 0 -> stage s') -> snap_ok s' w -> cinv s'.
Proof.
  intros I Hw A1 A2 N1 N2 Sn Mo Ng Rs Fi Hh Hh2 s' St Sk.
  assert (Na : forall v, pcs s v <> Advancing). { apply (no_adv s w I Hw); [|exact N1]. intros E. rewrite E in A1. discriminate. }
  unfold s' in *; clear s'. split; fields.
  - apply (c_stop _ I).
  - intros v Hv. rewrite set_nat_neq by lia. now apply (c_out _ I).
  - intros v. unfold set_nat. destruct (Nat.eqb v w); [destruct p; discriminate|apply (c_end _ I)].
  - intros _. destruct (c_loose _ I Na) as (L & L0). split; [|exact L0]. pose proof (count_set active (pcs s) n w p Hw) as C. rewrite A1, A2 in C. lia.
  - intros v. unfold set_nat. destruct (Nat.eqb v w); [congruence|]. intros E. elim (Na v E).
  - intros v. pose proof (c_hold _ I v) as K. pose proof (c_hold _ I w) as Kw. subst h'. unfold set_nat. destruct (Nat.eqb_spec v w) as [->|Nv].
    + destruct (holds p) eqn:Ep; [tauto|]. destruct (holds (pcs s w)) eqn:Ew; [split; discriminate|]. rewrite Kw. split; congruence.
    + destruct (holds p) eqn:Ep.
      * split; [intros [= E]; congruence|]. intros E. apply K in E. destruct (holds (pcs s w)) eqn:Ew; [assert (holder s = Some w) by (apply Kw; reflexivity); congruence|]. rewrite (Hh2 eq_refl eq_refl) in E. discriminate.
      * destruct (holds (pcs s w)) eqn:Ew; [|exact K]. assert (holder s = Some w) by (apply Kw; reflexivity). split; [discriminate|]. intros E. apply K in E. congruence.
  - intros v Hv. destruct (Nat.eq_dec v w) as [->|Nv]; [exact Sk|]. pose proof (c_snap _ I v Hv) as K. unfold snap_ok in *. fields. rewrite set_nat_neq by exact Nv. now rewrite Sn.
  - intros u Hu. destruct (Ng u Hu) as [->|(v & Nv & E)]; [exists w; apply set_nat_eq|exists v; now rewrite set_nat_neq].
  - intros v u. unfold set_nat. destruct (Nat.eqb v w); [apply Rs|]. intros E. apply Mo, (c_reset _ I v u E).
  - intros v. unfold set_nat. destruct (Nat.eqb_spec v w) as [->|]; [exact Fi|]. intros E. apply Mo, (c_fin _ I v E).
  - destruct (Nat.eq_dec w 0) as [E|E]; [auto|]. pose proof (c_stage _ I) as K. unfold stage in *. fields. rewrite set_nat_neq by auto.
    destruct (pcs s 0) as [| v|v| | | |[]| |]; auto; destruct K as (K1 & K2); split; auto.
Qed.

Lemma map_set_last (f : nat -> reaction) k r : map (set_nat f k r) (seq 0 (S k)) = map f (seq 0 k) ++ [r].
Proof.
  rewrite seq_S, map_app. cbn. rewrite set_nat_eq. f_equal. apply map_ext_in. intros i Hi. apply in_seq in Hi. apply set_nat_neq. lia.
Qed.
(** Two contents of the arrays of a level that differ in one element. *)
Lemma qall_one s s' l v r : v < n -> (forall u, u <> v -> qlist s' l u = qlist s l u) -> qlist s' l v = qlist s l v ++ [r] ->
  Permutation (qall s' l) (r :: qall s l).
Proof.
  intros Hv O E. pose proof (flat_swap (qlist s' l) (qlist s l) n v Hv O) as F. rewrite E, <- app_assoc in F. apply Permutation_app_inv_l in F. exact F.
Qed.

Lemma trigger_inv s o r : dinv s o -> In r rs -> (forall w, pcs s w <> Running r) -> (current s < lvl r \/ (current s = 0 /\ forall u, (0 <= cnt s 0 u)%Z)) ->
  exists s', trigger s r = Some s' /\ dinv s' (with_pending o (add lvl (pending o) r)) /\
    current s' = current s /\ nums s' = nums s /\ loose s' = loose s /\ awakened s' = awakened s /\ counter s' = counter s /\ snap s' = snap s /\
    holder s' = holder s /\ should_stop s' = should_stop s /\ pcs s' = pcs s /\
    (current s < lvl r -> cnt s' (current s) = cnt s (current s)) /\ ((forall u, (0 <= cnt s 0 u)%Z) -> forall u, (0 <= cnt s' 0 u)%Z).
Proof.
  intros D Hr Nr Lv. unfold SchedAdaptive.trigger. destruct (queued s r) eqn:Q.
  - exists s. split; [reflexivity|]. split; [|repeat (split; [reflexivity|]); auto].
    assert (with_pending o (add lvl (pending o) r) = o) as ->; [|exact D]. unfold add.
    replace (existsb (Nat.eqb r) (pending o (lvl r))) with true; [destruct o; reflexivity|]. symmetry. apply existsb_exists. exists r. split; [|apply Nat.eqb_refl].
    destruct (d_queued _ _ D r Q) as [H|(w & E)]; [exact H|elim (Nr w E)].
  - pose proof (Htop r Hr) as Tp. set (l0 := lvl r) in *. destruct (d_nums _ _ D l0 Tp) as (Nu1 & Nu2). set (u0 := hash r mod nums s l0).
    assert (Hu : u0 < nums s l0) by (apply Nat.mod_upper_bound; lia).
    assert (P : (0 <= cnt s l0 u0)%Z). { destruct (Nat.eq_dec l0 (current s)) as [E|N]; [|now apply (d_other _ _ D)]. destruct Lv as [Lv|(E0 & Lv)]; [lia|]. rewrite E, E0. apply Lv. }
    assert (Rm : Z.to_nat (cnt s l0 u0) < size l0). { pose proof (pending_room_new s o r D Hr Q). pose proof (qall_length s o l0 u0 D ltac:(lia)). fold l0 in H. lia. }
    assert (K : (l0 <=? top) && ((current s <? l0) || (current s =? 0)) && (u0 <? Nat.min (size l0) n) && (0 <=? cnt s l0 u0)%Z && (Z.to_nat (cnt s l0 u0) <? size l0) = true).
    { apply andb_true_intro; split; [|now apply Nat.ltb_lt]. apply andb_true_intro; split; [|lia]. apply andb_true_intro; split; [|apply Nat.ltb_lt; lia].
      apply andb_true_intro; split; [now apply Nat.leb_le|]. apply orb_true_iff. destruct Lv as [Lv|(E0 & _)]; [left; now apply Nat.ltb_lt|right; now apply Nat.eqb_eq]. }
    rewrite K. clear K. eexists. split; [reflexivity|]. set (k := Z.to_nat (cnt s l0 u0)) in *.
    assert (Fresh : ~ In r (pending o l0)) by (intros H; destruct (d_lvl _ _ D _ _ H) as (_ & _ & F); congruence).
    split.
    2:{ fields. repeat (split; [reflexivity|]). split.
        - intros H. unfold set_nat. destruct (Nat.eqb_spec (current s) l0); [lia|reflexivity].
        - intros H u. unfold set_nat. destruct (Nat.eqb_spec 0 l0) as [<-|]; [|apply H]. destruct (Nat.eqb_spec u u0) as [->|]; [|apply H]. lia. }
    unfold add. fold l0. replace (existsb (Nat.eqb r) (pending o l0)) with false.
    2:{ symmetry. apply not_true_is_false. intros H. apply existsb_exists in H. destruct H as (x & Hx & Ex). apply Nat.eqb_eq in Ex. now subst x. }
    split; fields.
    + intros l. unfold set_nat at 1. destruct (Nat.eqb_spec l l0) as [->|Nl].
      * symmetry. etransitivity; [|apply perm_skip; symmetry; apply (d_perm _ _ D)]. apply (qall_one _ _ l0 u0); [lia| |].
        -- intros u Nu. unfold qlist. fields. rewrite !set_nat_eq, !set_nat_neq by exact Nu. reflexivity.
        -- unfold qlist. fields. rewrite !set_nat_eq. replace (Z.to_nat (cnt s l0 u0 + 1)) with (S k) by (unfold k; lia). fold k. apply map_set_last.
      * assert (qall (mkSched (set_nat (cnt s) l0 (set_nat (cnt s l0) u0 (cnt s l0 u0 + 1)%Z)) (set_nat (arr s) l0 (set_nat (arr s l0) u0 (set_nat (arr s l0 u0) k r))) (current s) (nums s) (loose s) (awakened s) (counter s) (snap s) (holder s) (set_nat (queued s) r true) (should_stop s) (pcs s)) l = qall s l) as ->; [|apply (d_perm _ _ D)].
        unfold qall. rewrite !flat_map_concat_map. f_equal. apply map_ext. intros u. unfold qlist. fields. now rewrite !(set_nat_neq _ l0) by exact Nl.
    + intros l. unfold set_nat. destruct (Nat.eqb_spec l l0) as [->|]; [constructor; [exact Fresh|]|]; apply (d_nodup _ _ D).
    + intros l x H. assert (l = l0 /\ x = r \/ In x (pending o l)) as [(-> & ->)|Hx].
      { unfold set_nat in H. destruct (Nat.eqb_spec l l0) as [->|]; [|auto]. destruct H as [<-|H]; auto. }
      * rewrite set_nat_eq. auto.
      * destruct (d_lvl _ _ D l x Hx) as (A & B & C). unfold set_nat. rewrite C. destruct (Nat.eqb x r); auto.
    + intros w x E. destruct (d_run _ _ D w x E) as (A & B & C & F). assert (x <> r) by (intros ->; elim (Nr w E)).
      split; [now rewrite set_nat_neq|]. split; [exact B|]. split; [exact C|]. unfold set_nat. destruct (Nat.eqb_spec (lvl x) l0) as [El|]; [|exact F].
      intros [H'|H']; [congruence|]. apply F. now rewrite El.
    + apply (d_run2 _ _ D).
    + intros x. unfold set_nat at 1. destruct (Nat.eqb_spec x r) as [->|Nx].
      * intros _. left. fold l0. rewrite set_nat_eq. now left.
      * intros Qx. destruct (d_queued _ _ D x Qx) as [H|H]; [left|right; exact H]. unfold set_nat. destruct (Nat.eqb_spec (lvl x) l0) as [El|]; [right; now rewrite <- El|exact H].
    + apply (d_nums _ _ D).
    + intros l u L H. unfold set_nat. destruct (Nat.eqb_spec l l0) as [->|]; [|now apply (d_over _ _ D)]. destruct (Nat.eqb_spec u u0); [lia|now apply (d_over _ _ D)].
    + intros l u N. unfold set_nat. destruct (Nat.eqb_spec l l0) as [->|]; [|now apply (d_other _ _ D)]. destruct (Nat.eqb_spec u u0) as [->|]; [lia|now apply (d_other _ _ D)].
    + intros l u L. unfold set_nat. destruct (Nat.eqb_spec l l0) as [->|]; [lia|now apply (d_low _ _ D)].
    + apply (d_cur _ _ D).
    + apply (d_level _ _ D).
    + apply (d_busy _ _ D).
Qed.

Lemma trigger_all_inv ts : forall s o, dinv s o -> incl ts rs -> (forall w r, pcs s w <> Running r) -> current s = 0 -> (forall u, (0 <= cnt s 0 u)%Z) ->
  exists s', trigger_all s ts = Some s' /\ dinv s' (with_pending o (fold_left (add lvl) ts (pending o))) /\
    current s' = current s /\ nums s' = nums s /\ loose s' = loose s /\ awakened s' = awakened s /\ counter s' = counter s /\ snap s' = snap s /\
    holder s' = holder s /\ should_stop s' = should_stop s /\ pcs s' = pcs s /\ forall u, (0 <= cnt s' 0 u)%Z.
Proof.
  induction ts as [|r ts IH]; intros s o D Inc Nr C0 P; cbn [SchedAdaptive.trigger_all fold_left].
  - exists s. split; [reflexivity|]. split; [destruct o; exact D|]. repeat (split; [reflexivity|]). exact P.
  - destruct (trigger_inv s o r D) as (s1 & -> & D1 & E1 & E2 & E3 & E4 & E5 & E6 & E7 & E8 & E9 & _ & E10); auto; [apply Inc; now left|].
    destruct (IH s1 _ D1) as (s2 & -> & D2 & F1 & F2 & F3 & F4 & F5 & F6 & F7 & F8 & F9 & F10).
    { intros x Hx. apply Inc. now right. } { rewrite E9. apply Nr. } { congruence. } { auto. }
    exists s2. split; [reflexivity|]. split; [exact D2|]. repeat (split; [congruence|]). exact F10.
Qed.

Lemma dinv_empty : dinv (empty n size) (observed0 lvl []).
Proof.
  split; cbn.
  - intros l. unfold qall, qlist. cbn. induction (seq 0 n); [constructor|exact IHl0].
  - constructor.
  - intros l r [].
  - intros; discriminate.
  - intros; discriminate.
  - intros; discriminate.
  - intros l L. pose proof (Hpos l L). lia.
  - intros; lia.
  - intros; lia.
  - intros; reflexivity.
  - lia.
  - reflexivity.
  - reflexivity.
Qed.

Lemma init_inv ts : incl ts rs -> exists s, init n top lvl size hash ts = Some s /\ inv s (observed0 lvl ts).
Proof.
  intros Inc. destruct (trigger_all_inv ts (empty n size) _ dinv_empty Inc) as (s & E & D & E1 & E2 & E3 & E4 & E5 & E6 & E7 & E8 & E9 & E10); try (cbn; intros; try discriminate; lia).
  exists s. split; [exact E|]. split; [exact D|]. cbn in *. split.
  - exact E8.
  - intros w _. now rewrite E9.
  - intros w. rewrite E9. discriminate.
  - intros _. rewrite E9, count_const, E3. cbn. lia.
  - intros w. rewrite E9. discriminate.
  - intros w. rewrite E7, E9. split; discriminate.
  - intros w _. unfold snap_ok. now rewrite E9.
  - intros u. rewrite E1. specialize (E10 u). lia.
  - intros w u. rewrite E9. discriminate.
  - intros w. rewrite E9. discriminate.
  - unfold stage. now rewrite E9.
Qed.

(** ** After a change of level *)
Lemma sum_zero (f : nat -> Z) l : (forall u, (0 <= f u)%Z) -> (0 <= fold_right Z.add 0 (map f l))%Z /\ (fold_right Z.add 0%Z (map f l) = 0%Z -> forall u, In u l -> f u = 0%Z).
Proof.
  intros P. induction l as [|a l (IH1 & IH2)]; cbn; [split; [lia|intros _ u []]|]. pose proof (P a). split; [lia|]. intros E u [<-|H']; [lia|apply IH2; [lia|exact H']].
Qed.

Lemma go_on_inv s o w : dinv s o -> w < n -> pcs s w = Advancing -> (forall v, v < n -> v <> w -> pcs s v = Asleep false) -> (forall v, n <= v -> pcs s v = Enter) ->
  should_stop s = false -> loose s = 0%Z -> holder s = Some w -> (forall v, v < n -> v <> w -> snap s v <= counter s) -> (forall u, (0 <= cnt s (current s) u)%Z) ->
  inv (go_on n s w) o.
Proof.
  intros D Hw E Oth Out Stp Lo Ho Sn P. destruct (d_nums _ _ D _ (d_cur _ _ D)) as (Nu1 & Nu2).
  destruct (sum_zero (cnt s (current s)) (seq 0 (nums s (current s))) P) as (T0 & T1). fold (total s) in T0, T1.
  assert (Hv : forall v, v = w \/ (v < n /\ v <> w) \/ n <= v) by (intros; lia).
  unfold go_on. destruct (Z.eqb_spec (total s) 0) as [Z|Z].
  - assert (All : forall u, (cnt s (current s) u <= 0)%Z).
    { intros u. destruct (Nat.lt_ge_cases u (nums s (current s))) as [L|L]; [rewrite (T1 Z u); [lia|apply in_seq; lia]|apply (d_over _ _ D); [apply (d_cur _ _ D)|exact L]]. }
    split; [exact D|]. split.
    + exact Stp.
    + exact Out.
    + intros v F. destruct (Hv v) as [->|[(A & B)|A]]; [|rewrite (Oth v A B) in F|rewrite (Out v A) in F]; congruence.
    + intros H. elim (H w E).
    + intros v F. split; [exact Lo|]. assert (v = w) as -> by (destruct (Hv v) as [->|[(A & B)|A]]; [reflexivity|rewrite (Oth v A B) in F|rewrite (Out v A) in F]; discriminate). exact Oth.
    + intros v. rewrite Ho. split; [intros [= <-]; now rewrite E|]. intros F. f_equal. destruct (Hv v) as [->|[(A & B)|A]]; [reflexivity|rewrite (Oth v A B) in F|rewrite (Out v A) in F]; discriminate.
    + intros v L. unfold snap_ok. destruct (Nat.eq_dec v w) as [->|N]; [now rewrite E|]. rewrite (Oth v L N). auto.
    + intros u H. specialize (P u). lia.
    + intros v u F. apply All.
    + intros v F. apply All.
    + unfold stage. destruct (pcs s 0) as [| v|v| | | |[]| |] eqn:E0; auto; (split; [|auto]); destruct (Hv 0) as [K|[(A & B)|A]]; [rewrite K in E0; congruence|rewrite (Oth 0 A B) in E0; discriminate|lia|rewrite K in E0; congruence|rewrite (Oth 0 A B) in E0; discriminate|lia].
  - destruct (Z.ltb_spec (total s) 0); [lia|]. set (k := Nat.min (Z.to_nat (total s)) (nums s (current s))). assert (Hk : 1 <= k <= n) by (unfold k; lia).
    unfold awaken. destruct ((w =? 0) && (k <=? 1)) eqn:B.
    + apply andb_prop in B as (B & _). apply Nat.eqb_eq in B. subst w.
      split; [apply (dinv_move s); fields; auto; [apply runs_set; now rewrite E]|]. split; fields.
      * exact Stp.
      * intros v L. rewrite set_nat_neq by lia. auto.
      * intros v F. unfold set_nat in F. destruct (Nat.eqb_spec v 0) as [|N]; [discriminate|]. destruct (Hv v) as [->|[(A & B)|A]]; [congruence|rewrite (Oth v A B) in F|rewrite (Out v A) in F]; congruence.
      * intros _. split; [|lia]. rewrite (count_but active _ n 0 1); [cbn; lia|exact Hw|now rewrite set_nat_eq|]. intros v L N. rewrite set_nat_neq by exact N. rewrite (Oth v L N). destruct (Nat.ltb_spec v 1); [lia|reflexivity].
      * intros v F. unfold set_nat in F. destruct (Nat.eqb_spec v 0) as [|N]; [discriminate|]. destruct (Hv v) as [->|[(A & B)|A]]; [congruence|rewrite (Oth v A B) in F|rewrite (Out v A) in F]; congruence.
      * intros v. split; [discriminate|]. intros F. unfold set_nat in F. destruct (Nat.eqb_spec v 0) as [|N]; [discriminate|]. destruct (Hv v) as [->|[(A & B)|A]]; [congruence|rewrite (Oth v A B) in F|rewrite (Out v A) in F]; discriminate.
      * intros v L. unfold snap_ok. fields. unfold set_nat. destruct (Nat.eqb_spec v 0) as [->|N]; [exact Logic.I|]. rewrite (Oth v L N). auto.
      * intros u H'. specialize (P u). lia.
      * intros v u F. unfold set_nat in F. destruct (Nat.eqb_spec v 0) as [|N]; [discriminate|]. destruct (Hv v) as [->|[(A & B)|A]]; [congruence|rewrite (Oth v A B) in F|rewrite (Out v A) in F]; discriminate.
      * intros v F. unfold set_nat in F. destruct (Nat.eqb_spec v 0) as [|N]; [discriminate|]. destruct (Hv v) as [->|[(A & B)|A]]; [congruence|rewrite (Oth v A B) in F|rewrite (Out v A) in F]; discriminate.
      * unfold stage. fields. now rewrite set_nat_eq.
    + clear B. cbv zeta. set (c := cond_of (k - 1)). set (lt := if cumsum n c <=? w then S (cumsum n c) else cumsum n c).
      set (f := set_nat (fun v => match pcs s v with Asleep b => Asleep (b || (cond_of v <=? c)) | p => p end) w Enter).
      pose proof (cumsum_ge n k Hk) as Cg. fold c in Cg. assert (Lt : cumsum n c <= lt) by (unfold lt; destruct (_ <=? _); lia).
      assert (Fw : f w = Enter) by apply set_nat_eq.
      assert (Fo : forall v, v < n -> v <> w -> f v = Asleep (v <? cumsum n c)). { intros v L N. unfold f. rewrite set_nat_neq by exact N. rewrite (Oth v L N). cbn [orb]. now rewrite (in_group n c v L). }
      assert (Fout : forall v, n <= v -> f v = Enter). { intros v L. unfold f. rewrite set_nat_neq by lia. now rewrite (Out v L). }
      assert (Fc : forall v, f v = Enter \/ (v < n /\ v <> w /\ f v = Asleep (v <? cumsum n c))). { intros v. destruct (Hv v) as [->|[(A & B)|A]]; auto. }
      split.
      * apply (dinv_move s); fields; auto. intros v. fold f. destruct (Hv v) as [->|[(A & B)|A]]; [rewrite Fw, E; reflexivity|rewrite (Fo v A B), (Oth v A B); reflexivity|rewrite (Fout v A), (Out v A); reflexivity].
      * split; fields; fold f.
        -- exact Stp.
        -- exact Fout.
        -- intros v F. destruct (Fc v) as [A|(_ & _ & A)]; congruence.
        -- intros _. split; [|lia]. f_equal. rewrite (count_but active f n w (cumsum n c)); [|exact Hw|now rewrite Fw|].
           ++ unfold lt. rewrite cumsum_min. rewrite Nat.min_assoc, Nat.min_id. reflexivity.
           ++ intros v L N. rewrite (Fo v L N). destruct (v <? cumsum n c); reflexivity.
        -- intros v F. destruct (Fc v) as [A|(_ & _ & A)]; congruence.
        -- intros v. split; [discriminate|]. intros F. destruct (Fc v) as [A|(_ & _ & A)]; rewrite A in F; discriminate.
        -- intros v L. unfold snap_ok. fields. fold f. destruct (Nat.eq_dec v w) as [->|N]; [now rewrite Fw|]. rewrite (Fo v L N). pose proof (Sn v L N). destruct (Nat.ltb_spec v (cumsum n c)); lia.
        -- intros u H'. specialize (P u). lia.
        -- intros v u F. destruct (Fc v) as [A|(_ & _ & A)]; congruence.
        -- intros v F. destruct (Fc v) as [A|(_ & _ & A)]; congruence.
        -- unfold stage. fields. fold f. destruct (Nat.eq_dec 0 w) as [<-|N]; [now rewrite Fw|]. rewrite (Fo 0) by lia. destruct (Nat.ltb_spec 0 (cumsum n c)); [exact Logic.I|lia].
Qed.

(** ** The steps *)
Lemma set_cnt_le s v z u : cinv s -> ((z <= 0)%Z \/ z = (cnt s (current s) v - 1)%Z) ->
  (cnt s (current s) u <= 0)%Z -> (set_nat (cnt s) (current s) (set_nat (cnt s (current s)) v z) (current s) u <= 0)%Z.
Proof. intros I Hz H. rewrite set_nat_eq. unfold set_nat. destruct (Nat.eqb_spec u v) as [->|]; lia. Qed.

Lemma step_enter s o w : inv s o -> w < n -> pcs s w = Enter -> ok o (step s (Step w)).
Proof.
  intros (D & I) Hw E. cbn [SchedAdaptive.step]. apply Nat.ltb_lt in Hw as Hb. rewrite Hb, E. cbn [negb andb]. exists o. split; [reflexivity|]. left. split.
  - apply (dinv_move s); fields; auto. apply runs_set. now rewrite E.
  - apply (cinv_move s w (Try w) (cnt s) (set_nat (snap s) w (counter s)) (holder s)); fields; auto; try (now rewrite E); try discriminate; try congruence.
    + intros v N. now apply set_nat_neq.
    + intros u H. destruct (c_neg _ I u H) as (v & F). right. exists v. split; [congruence|exact F].
    + intros ->. unfold stage. fields. rewrite set_nat_eq. split; [destruct (d_nums _ _ D _ (d_cur _ _ D)); lia|intros; lia].
    + unfold snap_ok. fields. now rewrite !set_nat_eq.
Qed.

Lemma step_try s o w v : inv s o -> w < n -> pcs s w = Try v -> ok o (step s (Step w)).
Proof.
  intros (D & I) Hw E. cbn [SchedAdaptive.step]. apply Nat.ltb_lt in Hw as Hb. rewrite Hb, E. cbn [negb]. fields.
  pose proof (c_snap _ I w Hw) as Sk. unfold snap_ok in Sk. rewrite E in Sk. pose proof (c_stage _ I) as St.
  destruct (Z.ltb_spec (cnt s (current s) v - 1) 0) as [Lt|Ge].
  - exists o. split; [reflexivity|]. left. split.
    + apply (dinv_move s); fields; auto.
      * apply runs_set. now rewrite E.
      * intros l u N. now rewrite set_nat_neq.
      * intros u. rewrite set_nat_eq. unfold set_nat. destruct (Nat.eqb_spec u v) as [->|]; [right; lia|auto].
    + apply (cinv_move s w (Reset v) _ (snap s) (holder s)); fields; auto; try (now rewrite E); try discriminate; try congruence.
      * intros u. apply set_cnt_le; auto.
      * intros u. rewrite set_nat_eq. unfold set_nat. destruct (Nat.eqb_spec u v) as [->|]; [auto|]. intros H. right. destruct (c_neg _ I u H) as (x & F). exists x. split; [congruence|exact F].
      * intros u [= <-]. rewrite !set_nat_eq. lia.
      * intros ->. unfold stage in *. fields. rewrite set_nat_eq, E in *. destruct St as (S1 & S2). split; [exact S1|]. intros u Hu. apply set_cnt_le; auto.
      * unfold snap_ok. fields. now rewrite set_nat_eq.
  - assert (Hv : v < nums s (current s)). { destruct (Nat.lt_ge_cases v (nums s (current s))) as [|L]; [assumption|]. pose proof (d_over _ _ D _ v (d_cur _ _ D) L). lia. }
    destruct (d_nums _ _ D _ (d_cur _ _ D)) as (Nu1 & Nu2). pose proof (qall_length s o (current s) v D ltac:(lia)) as Ql. pose proof (pending_room s o (current s) D) as Rm.
    set (k := Z.to_nat (cnt s (current s) v - 1)) in *.
    replace ((v <? Nat.min (size (current s)) n) && (k <? size (current s))) with true.
    2:{ symmetry. apply andb_true_intro. split; apply Nat.ltb_lt; unfold k in *; lia. }
    cbn [negb]. set (r := arr s (current s) v k). set (s' := set_pc (set_cnt s v (cnt s (current s) v - 1)%Z) w (Running r)).
    assert (Pq : Permutation (qall s (current s)) (r :: qall s' (current s))).
    { apply (qall_one s' s (current s) v r); [lia| |].
      - intros u N. unfold qlist, s'. fields. now rewrite set_nat_eq, set_nat_neq.
      - unfold qlist, s'. fields. rewrite !set_nat_eq. fold k. replace (Z.to_nat (cnt s (current s) v)) with (S k) by (unfold k; lia). rewrite seq_S, map_app. reflexivity. }
    assert (Hr : In r (pending o (current s))). { eapply Permutation_in; [symmetry; apply (d_perm _ _ D)|]. rewrite Pq. now left. }
    destruct (d_lvl _ _ D _ _ Hr) as (L1 & L2 & L3). destruct (remove_one_perm r _ Hr) as (pl & Rp & Pp).
    assert (Nd : ~ In r pl /\ NoDup pl). { pose proof (d_nodup _ _ D (current s)) as N. rewrite Pp in N. inversion N; auto. }
    assert (Nrr : forall x, pcs s x <> Running r). { intros x F. destruct (d_run _ _ D x r F) as (_ & _ & _ & F'). rewrite L1 in F'. contradiction. }
    unfold ok. cbn [accepts accept]. rewrite (d_busy _ _ D), E, (d_level _ _ D), Rp, L1, Nat.eqb_refl, Hb. cbn [runs andb].
    eexists. split; [reflexivity|]. left. fold s'. split.
    + split; unfold s'; fields.
      * intros l. destruct (Nat.eq_dec l (current s)) as [->|N].
        -- rewrite set_nat_eq. apply Permutation_cons_inv with (a := r). rewrite <- Pp. rewrite (d_perm _ _ D). exact Pq.
        -- rewrite set_nat_neq by exact N. rewrite (qall_same s); [apply (d_perm _ _ D)|reflexivity|]. fields. intros u. now rewrite set_nat_neq.
      * intros l. unfold set_nat. destruct (Nat.eqb_spec l (current s)); [apply Nd|apply (d_nodup _ _ D)].
      * intros l x H. apply (d_lvl _ _ D l x). unfold set_nat in H. destruct (Nat.eqb_spec l (current s)) as [->|]; [|exact H]. rewrite Pp. now right.
      * intros x y. unfold set_nat at 1. destruct (Nat.eqb_spec x w).
        -- intros [= <-]. rewrite L1, set_nat_eq. auto using (proj1 Nd).
        -- intros F. destruct (d_run _ _ D x y F) as (A & B & C & G). split; [exact A|]. split; [exact B|]. split; [exact C|]. rewrite C in *. rewrite set_nat_eq. intros H. apply G. rewrite Pp. now right.
      * intros x y z. unfold set_nat. destruct (Nat.eqb_spec x w) as [->|], (Nat.eqb_spec y w) as [->|]; auto; [intros [= <-] F; elim (Nrr _ F)|intros F [= <-]; elim (Nrr _ F)|apply (d_run2 _ _ D)].
      * intros y Q. destruct (d_queued _ _ D y Q) as [H|(x & F)].
        -- unfold set_nat at 1. destruct (Nat.eqb_spec (lvl y) (current s)) as [El|]; [|auto]. rewrite El, Pp in H. destruct H as [<-|H]; [right; exists w; apply set_nat_eq|auto].
        -- right. exists x. rewrite set_nat_neq; [exact F|congruence].
      * apply (d_nums _ _ D).
      * intros l u L H. unfold set_nat. destruct (Nat.eqb_spec l (current s)) as [->|]; [|now apply (d_over _ _ D)]. destruct (Nat.eqb_spec u v); [lia|now apply (d_over _ _ D)].
      * intros l u N. rewrite set_nat_neq by exact N. now apply (d_other _ _ D).
      * intros l u L. rewrite set_nat_neq by lia. now apply (d_low _ _ D).
      * apply (d_cur _ _ D).
      * reflexivity.
      * intros x. unfold set_nat. destruct (Nat.eqb x w); [reflexivity|apply (d_busy _ _ D)].
    + apply (cinv_move s w (Running r) _ (snap s) (holder s)); fields; auto; try (now rewrite E); try discriminate; try congruence.
      * intros u. apply set_cnt_le; auto.
      * intros u. rewrite set_nat_eq. unfold set_nat. destruct (Nat.eqb_spec u v) as [->|]; [lia|]. intros H. right. destruct (c_neg _ I u H) as (x & F). exists x. split; [congruence|exact F].
      * intros ->. unfold stage. fields. now rewrite set_nat_eq.
      * unfold snap_ok. fields. now rewrite set_nat_eq.
Qed.

Lemma step_reset s o w v : inv s o -> w < n -> pcs s w = Reset v -> ok o (step s (Step w)).
Proof.
  intros (D & I) Hw E. cbn [SchedAdaptive.step]. apply Nat.ltb_lt in Hw as Hb. rewrite Hb, E. cbn [negb]. fields.
  pose proof (c_snap _ I w Hw) as Sk. unfold snap_ok in Sk. rewrite E in Sk. pose proof (c_stage _ I) as St. pose proof (c_reset _ I w v E) as Rz.
  destruct (d_nums _ _ D _ (d_cur _ _ D)) as (Nu1 & Nu2). set (k := nums s (current s)) in *.
  assert (G : forall p, p = Locking \/ (exists u, p = Try u) ->
    (w = 0 -> stage (set_pc (set_cnt s v 0) w p)) -> exists o', accepts n top lvl o [] = Some o' /\ (inv (set_pc (set_cnt s v 0) w p) o' \/ inv_stop (set_pc (set_cnt s v 0) w p))).
  { intros p Hp Hs. exists o. split; [reflexivity|]. left. split.
    - apply (dinv_move s); fields; auto.
      + apply runs_set. rewrite E. destruct Hp as [->|(u & ->)]; reflexivity.
      + intros l u N. now rewrite set_nat_neq.
      + intros u. rewrite set_nat_eq. unfold set_nat. destruct (Nat.eqb_spec u v) as [->|]; [right; lia|auto].
    - apply (cinv_move s w p _ (snap s) (holder s)); fields; auto; try (now rewrite E); try (destruct Hp as [->|(u & ->)]; discriminate).
      + destruct Hp as [->|(u & ->)]; reflexivity.
      + intros u. apply set_cnt_le; auto. left. lia.
      + intros u. rewrite set_nat_eq. unfold set_nat. destruct (Nat.eqb_spec u v) as [->|N]; [lia|]. intros H. right. destruct (c_neg _ I u H) as (x & F). exists x. split; [intros ->; rewrite E in F; congruence|exact F].
      + rewrite E. cbn [holds]. destruct Hp as [->|(u & ->)]; reflexivity.
      + unfold snap_ok. fields. rewrite set_nat_eq. destruct Hp as [->|(u & ->)]; exact Sk. }
  destruct ((w <? k) && negb ((v + 1) mod k =? w)) eqn:B.
  - apply G; [eauto|]. intros ->. unfold stage in *. fields. rewrite set_nat_eq, E in *. destruct St as (S1 & S2). fold k in S1 |- *.
    apply andb_prop in B as (_ & B). apply negb_true_iff, Nat.eqb_neq in B.
    assert (v + 1 < k). { destruct (Nat.eq_dec (v + 1) k) as [F|]; [|lia]. rewrite F, Nat.mod_same in B by lia. congruence. }
    rewrite Nat.mod_small by assumption. split; [assumption|]. intros u Hu. rewrite set_nat_eq. unfold set_nat. destruct (Nat.eqb_spec u v); [lia|]. apply S2. lia.
  - apply G; [auto|]. intros ->. unfold stage in *. fields. rewrite set_nat_eq, E in *. destruct St as (S1 & S2). fold k in S1.
    apply andb_false_iff in B. destruct B as [B|B]; [apply Nat.ltb_ge in B; lia|]. apply negb_false_iff, Nat.eqb_eq in B.
    assert (v + 1 = k). { destruct (Nat.eq_dec (v + 1) k) as [F|]; [exact F|]. rewrite Nat.mod_small in B by lia. lia. }
    intros u. rewrite set_nat_eq. unfold set_nat. destruct (Nat.eqb_spec u v); [lia|]. destruct (Nat.lt_ge_cases u v); [now apply S2|]. apply (d_over _ _ D); [apply (d_cur _ _ D)|fold k; lia].
Qed.

Lemma step_locking s o w : inv s o -> w < n -> pcs s w = Locking -> ok o (step s (Step w)).
Proof.
  intros (D & I) Hw E. cbn [SchedAdaptive.step]. apply Nat.ltb_lt in Hw as Hb. rewrite Hb, E. cbn [negb]. destruct (holder s) eqn:Hh; [exact Logic.I|].
  pose proof (c_snap _ I w Hw) as Sk. unfold snap_ok in Sk. rewrite E in Sk. pose proof (c_stage _ I) as St.
  assert (Na : forall v, pcs s v <> Advancing) by (apply (no_adv s w I Hw); congruence).
  destruct (c_loose _ I Na) as (L1 & L2). pose proof (count_le active (pcs s) n) as L3. replace ((0 <? loose s) && (loose s <=? Z.of_nat n))%Z with true by lia. cbn [negb].
  destruct (Z.eqb_spec (cnt s (current s) w) 0) as [Z|Z].
  - exists o. split; [reflexivity|]. left. split.
    + apply (dinv_move s); fields; auto. apply runs_set. now rewrite E.
    + apply (cinv_move s w Finishing (cnt s) (snap s) (Some w)); fields; auto; try (now rewrite E); try discriminate; try congruence.
      * intros u H. right. destruct (c_neg _ I u H) as (x & F). exists x. split; [congruence|exact F].
      * intros _. lia.
      * intros ->. unfold stage in *. fields. rewrite set_nat_eq, E in *. exact St.
      * unfold snap_ok. fields. now rewrite set_nat_eq.
  - exists o. split; [reflexivity|]. left. split.
    + apply (dinv_move s); fields; auto. apply runs_set. now rewrite E.
    + apply (cinv_move s w (Try w) (cnt s) (snap s) (holder s)); fields; auto; try (now rewrite E); try discriminate; try congruence.
      * intros u H. right. destruct (c_neg _ I u H) as (x & F). exists x. split; [congruence|exact F].
      * intros ->. unfold stage. fields. rewrite set_nat_eq. split; [destruct (d_nums _ _ D _ (d_cur _ _ D)); lia|intros; lia].
      * unfold snap_ok. fields. now rewrite set_nat_eq.
Qed.

Lemma step_finishing s o w : inv s o -> w < n -> pcs s w = Finishing -> ok o (step s (Step w)).
Proof.
  intros (D & I) Hw E. cbn [SchedAdaptive.step]. apply Nat.ltb_lt in Hw as Hb. rewrite Hb, E. cbn [negb]. pose proof (c_fin _ I w E) as Cf.
  replace (0 <? cnt s (current s) w)%Z with false by lia.
  pose proof (c_snap _ I w Hw) as Sk. unfold snap_ok in Sk. rewrite E in Sk. pose proof (c_stage _ I) as St.
  assert (Na : forall v, pcs s v <> Advancing) by (apply (no_adv s w I Hw); congruence).
  destruct (c_loose _ I Na) as (L1 & L2). fields. assert (Hh : holder s = Some w) by (apply (c_hold _ I); now rewrite E).
  assert (Hone : forall v, holds (pcs s v) = true -> v = w). { intros v H. apply (c_hold _ I) in H. congruence. }
  destruct (Z.eqb_spec (loose s - 1) 0) as [Z|Z].
  - assert (Oth : forall v, v < n -> v <> w -> pcs s v = Asleep false).
    { intros v L N. pose proof (count_set active (pcs s) n w Ended Hw) as C. rewrite E in C. cbn in C. assert (C0 : count active (set_nat (pcs s) w Ended) n = 0) by lia.
      pose proof (count_none active _ n C0 v L) as A. rewrite set_nat_neq in A by exact N. pose proof (c_end _ I v). destruct (pcs s v) as [| | | | | |[]| |]; try discriminate; congruence. }
    exists o. split; [reflexivity|]. left. split.
    + apply (dinv_move s); fields; auto. apply runs_set. now rewrite E.
    + split; fields.
      * apply (c_stop _ I).
      * intros v L. rewrite set_nat_neq by lia. now apply (c_out _ I).
      * intros v. unfold set_nat. destruct (Nat.eqb v w); [discriminate|apply (c_end _ I)].
      * intros H. elim (H w). apply set_nat_eq.
      * intros v F. split; [exact Z|]. assert (v = w) as ->. { unfold set_nat in F. destruct (Nat.eqb_spec v w); [assumption|]. elim (Na v F). } intros u L N. rewrite set_nat_neq by exact N. auto.
      * intros v. rewrite Hh. unfold set_nat. destruct (Nat.eqb_spec v w) as [->|N]; [tauto|]. split; [congruence|]. intros F. apply Hone in F. congruence.
      * intros v L. unfold snap_ok. fields. unfold set_nat. destruct (Nat.eqb_spec v w) as [->|N]; [exact Logic.I|]. apply (c_snap _ I v L).
      * intros u H. destruct (c_neg _ I u H) as (x & F). exists x. rewrite set_nat_neq; [exact F|congruence].
      * intros v u. unfold set_nat. destruct (Nat.eqb v w); [discriminate|apply (c_reset _ I)].
      * intros v. unfold set_nat. destruct (Nat.eqb v w); [discriminate|apply (c_fin _ I)].
      * unfold stage in *. fields. unfold set_nat. destruct (Nat.eqb_spec 0 w) as [<-|N]; [rewrite E in St; exact St|exact St].
  - destruct (Z.ltb_spec (loose s - 1) 0); [lia|]. rewrite Sk, Nat.eqb_refl. cbn [orb]. exists o. split; [reflexivity|]. left. split.
    + apply (dinv_move s); fields; auto. apply runs_set. now rewrite E.
    + split; fields.
      * apply (c_stop _ I).
      * intros v L. rewrite set_nat_neq by lia. now apply (c_out _ I).
      * intros v. unfold set_nat. destruct (Nat.eqb v w); [discriminate|apply (c_end _ I)].
      * intros _. pose proof (count_set active (pcs s) n w (Asleep false) Hw) as C. rewrite E in C. cbn in C. lia.
      * intros v. unfold set_nat. destruct (Nat.eqb v w); [discriminate|]. intros F. elim (Na v F).
      * intros v. split; [discriminate|]. unfold set_nat. destruct (Nat.eqb_spec v w) as [->|N]; [discriminate|]. intros F. apply Hone in F. congruence.
      * intros v L. unfold snap_ok. fields. unfold set_nat. destruct (Nat.eqb_spec v w) as [->|N]; [lia|]. apply (c_snap _ I v L).
      * intros u H'. destruct (c_neg _ I u H') as (x & F). exists x. rewrite set_nat_neq; [exact F|congruence].
      * intros v u. unfold set_nat. destruct (Nat.eqb v w); [discriminate|apply (c_reset _ I)].
      * intros v. unfold set_nat. destruct (Nat.eqb v w); [discriminate|apply (c_fin _ I)].
      * unfold stage in *. fields. unfold set_nat. destruct (Nat.eqb_spec 0 w) as [<-|N]; [rewrite E in St; exact St|exact St].
Qed.

Lemma step_asleep s o w : inv s o -> w < n -> pcs s w = Asleep true -> ok o (step s (Step w)).
Proof.
  intros (D & I) Hw E. cbn [SchedAdaptive.step]. apply Nat.ltb_lt in Hw as Hb. rewrite Hb, E. cbn [negb]. destruct (holder s) eqn:Hh; [exact Logic.I|].
  pose proof (c_snap _ I w Hw) as Sk. unfold snap_ok in Sk. rewrite E in Sk. destruct Sk as (S1 & S2).
  replace (snap s w =? counter s) with false by (symmetry; apply Nat.eqb_neq; lia). replace (awakened s <=? w) with false by (symmetry; apply Nat.leb_gt; lia).
  cbn [orb]. rewrite (c_stop _ I). exists o. split; [reflexivity|]. left. split.
  - apply (dinv_move s); fields; auto. apply runs_set. now rewrite E.
  - apply (cinv_move s w Enter (cnt s) (snap s) (holder s)); fields; auto; try (now rewrite E); try discriminate; try congruence.
    + intros u H. right. destruct (c_neg _ I u H) as (x & F). exists x. split; [congruence|exact F].
    + intros ->. unfold stage. fields. now rewrite set_nat_eq.
    + unfold snap_ok. fields. now rewrite set_nat_eq.
Qed.

Lemma adv_zero s o w : inv s o -> pcs s w = Advancing -> forall u, cnt s (current s) u = 0%Z.
Proof.
  intros (D & I) E u. pose proof (lt_n s w _ I E ltac:(discriminate)) as Hw. destruct (c_adv _ I w E) as (_ & Oth).
  assert (A : (cnt s (current s) u <= 0)%Z). { pose proof (c_stage _ I) as St. unfold stage in St. destruct (Nat.eq_dec 0 w) as [<-|N]; [rewrite E in St; auto|]. rewrite (Oth 0) in St by lia. auto. }
  destruct (Z.ltb_spec (cnt s (current s) u) 0) as [B|B]; [|lia]. destruct (c_neg _ I u B) as (x & F). pose proof (lt_n s x _ I F ltac:(discriminate)) as L.
  destruct (Nat.eq_dec x w) as [->|N]; [congruence|]. rewrite (Oth x L N) in F. discriminate.
Qed.
Lemma adv_settled s o w : inv s o -> pcs s w = Advancing -> settled n o = true.
Proof.
  intros X E. pose proof (adv_zero s o w X E) as Z. destruct X as (D & I). unfold settled. rewrite (d_level _ _ D).
  assert (pending o (current s) = []) as ->.
  { apply Permutation_nil. symmetry. rewrite (d_perm _ _ D). unfold qall, qlist. clear - Z. induction (seq 0 n) as [|u l IH]; cbn; [constructor|]. rewrite Z. exact IH. }
  cbn [is_nil andb]. apply forallb_forall. intros v _. rewrite (d_busy _ _ D). pose proof (adv_not_running s w I E v). destruct (pcs s v); try reflexivity. congruence.
Qed.
Lemma adv_sum s o w : inv s o -> pcs s w = Advancing -> total s = 0%Z.
Proof. intros X E. unfold total. pose proof (adv_zero s o w X E) as Z. induction (seq 0 _) as [|u l IH]; cbn; [reflexivity|]. now rewrite Z, IH. Qed.

Lemma step_advancing s o w : inv s o -> w < n -> pcs s w = Advancing -> ok o (step s (Step w)).
Proof.
  intros X Hw E. cbn [SchedAdaptive.step]. apply Nat.ltb_lt in Hw as Hb. rewrite Hb, E. cbn [negb]. destruct (Nat.eqb_spec (current s) top) as [|Nt]; [exact Logic.I|].
  rewrite (adv_sum s o w X E). cbn [Z.eqb]. pose proof (adv_zero s o w X E) as Z. pose proof (adv_settled s o w X E) as Se. destruct X as (D & I). pose proof (d_cur _ _ D) as Cu.
  unfold ok. cbn [accepts accept]. rewrite Se, (d_level _ _ D). replace (current s <? top) with true by (symmetry; apply Nat.ltb_lt; lia). cbn [andb].
  eexists. split; [reflexivity|]. left. destruct (c_adv _ I w E) as (L & Oth).
  assert (D' : dinv (mkSched (cnt s) (arr s) (S (current s)) (nums s) (loose s) (awakened s) (counter s) (snap s) (holder s) (queued s) (should_stop s) (pcs s)) (mkObserved (pending o) (S (current s)) (busy o))).
  { split; fields.
    - apply (d_perm _ _ D).
    - apply (d_nodup _ _ D).
    - apply (d_lvl _ _ D).
    - intros v r F. elim (adv_not_running s w I E v r F).
    - apply (d_run2 _ _ D).
    - apply (d_queued _ _ D).
    - apply (d_nums _ _ D).
    - apply (d_over _ _ D).
    - intros l u N. destruct (Nat.eq_dec l (current s)) as [->|]; [rewrite Z; lia|now apply (d_other _ _ D)].
    - intros l u Hl. destruct (Nat.eq_dec l (current s)) as [->|]; [apply Z|apply (d_low _ _ D); lia].
    - lia.
    - reflexivity.
    - apply (d_busy _ _ D). }
  apply go_on_inv; fields; auto.
  - apply (c_out _ I).
  - apply (c_stop _ I).
  - apply (c_hold _ I). now rewrite E.
  - intros v Lv N. pose proof (c_snap _ I v Lv) as K. unfold snap_ok in K. now rewrite (Oth v Lv N) in K.
  - intros u. apply (d_other _ _ D). lia.
Qed.

Lemma step_triggers s o w r : inv s o -> allowed n top lvl size false rs s (Triggers w r) -> ok o (step s (Triggers w r)).
Proof.
  intros (D & I). cbn [SchedAdaptive.step allowed]. destruct (pcs s w) as [| | | | | | |q|] eqn:E; try (intros _; exact Logic.I). intros (Lq & Hr).
  destruct (d_run _ _ D w q E) as (_ & _ & Cq & _). rewrite Cq in Lq.
  destruct (trigger_inv s o r D Hr) as (s1 & -> & D1 & E1 & E2 & E3 & E4 & E5 & E6 & E7 & E8 & E9 & E10 & _); auto.
  { intros v F. destruct (d_run _ _ D v r F) as (_ & _ & C & _). lia. }
  unfold ok. cbn [accepts accept]. rewrite (d_busy _ _ D), E, (d_level _ _ D). cbn [runs].
  replace (current s <? lvl r) with true by (symmetry; now apply Nat.ltb_lt). replace (lvl r <=? top) with true by (symmetry; apply Nat.leb_le; auto). cbn [andb].
  eexists. split; [reflexivity|]. left. specialize (E10 Lq). split; [unfold with_pending in D1; rewrite (d_level _ _ D) in D1; exact D1|]. split.
  - rewrite E8. apply (c_stop _ I).
  - rewrite E9. apply (c_out _ I).
  - rewrite E9. apply (c_end _ I).
  - rewrite E9, E3. apply (c_loose _ I).
  - rewrite E9, E3. apply (c_adv _ I).
  - rewrite E9, E7. apply (c_hold _ I).
  - intros v L. unfold snap_ok. rewrite E9, E6, E5, E4. apply (c_snap _ I v L).
  - rewrite E1, E10, E9. apply (c_neg _ I).
  - rewrite E1, E10, E9. apply (c_reset _ I).
  - rewrite E1, E10, E9. apply (c_fin _ I).
  - unfold stage. rewrite E1, E10, E9, E2. apply (c_stage _ I).
Qed.

Lemma step_ends s o w : inv s o -> ok o (step s (Ends w)).
Proof.
  intros (D & I). cbn [SchedAdaptive.step]. destruct (pcs s w) as [| | | | | | |q|] eqn:E; try exact Logic.I. destruct (d_run _ _ D w q E) as (Qq & Rq & Cq & Nq). rewrite Qq.
  pose proof (lt_n s w _ I E ltac:(discriminate)) as Hw. unfold ok. cbn [accepts accept]. rewrite (d_busy _ _ D), E. cbn [runs]. eexists. split; [reflexivity|]. left. split.
  - split; fields.
    + apply (d_perm _ _ D).
    + apply (d_nodup _ _ D).
    + intros l x H. destruct (d_lvl _ _ D l x H) as (A & B & C). split; [exact A|]. split; [exact B|]. rewrite set_nat_neq; [exact C|]. intros ->. rewrite A in Nq. contradiction.
    + intros v x. unfold set_nat at 1. destruct (Nat.eqb_spec v w) as [|Nv]; [discriminate|]. intros F. destruct (d_run _ _ D v x F) as (A & B). rewrite set_nat_neq; [auto|].
      intros ->. apply Nv. eapply (d_run2 _ _ D); eassumption.
    + intros v u x. unfold set_nat. destruct (Nat.eqb v w); [discriminate|]. destruct (Nat.eqb u w); [discriminate|]. apply (d_run2 _ _ D).
    + intros x. unfold set_nat. destruct (Nat.eqb_spec x q) as [|Nx]; [discriminate|]. intros H. destruct (d_queued _ _ D x H) as [|(v & F)]; [auto|right]. exists v.
      destruct (Nat.eqb_spec v w) as [->|]; [congruence|exact F].
    + apply (d_nums _ _ D).
    + apply (d_over _ _ D).
    + apply (d_other _ _ D).
    + apply (d_low _ _ D).
    + apply (d_cur _ _ D).
    + apply (d_level _ _ D).
    + intros v. unfold set_nat. destruct (Nat.eqb v w); [reflexivity|apply (d_busy _ _ D)].
  - assert (C : cinv (set_pc s w Enter)); [|destruct C; split; assumption].
    apply (cinv_move s w Enter (cnt s) (snap s) (holder s)); fields; auto; try (now rewrite E); try discriminate; try congruence.
    + intros u H. right. destruct (c_neg _ I u H) as (x & F). exists x. split; [congruence|exact F].
    + intros ->. unfold stage. fields. now rewrite set_nat_eq.
    + unfold snap_ok. fields. now rewrite set_nat_eq.
Qed.

Lemma step_tag s o w stop ts nums' : inv s o -> allowed n top lvl size false rs s (Tag w stop ts nums') -> ok o (step s (Tag w stop ts nums')).
Proof.
  intros X. cbn [SchedAdaptive.step allowed]. intros (Inc & Hnums). destruct (pcs s w) as [| | | | | | |q|] eqn:E; try exact Logic.I. destruct (Nat.eqb_spec (current s) top) as [Ct|]; [|exact Logic.I]. cbn [negb].
  pose proof (adv_zero s o w X E) as Z. pose proof (adv_settled s o w X E) as Se. destruct X as (D & I). pose proof (lt_n s w _ I E ltac:(discriminate)) as Hw.
  destruct (c_adv _ I w E) as (L & Oth). pose proof (adv_not_running s w I E) as Nr.
  assert (Low : forall l u, l <= top -> cnt s l u = 0%Z). { intros l u Hl. destruct (Nat.eq_dec l (current s)) as [->|]; [apply Z|apply (d_low _ _ D); lia]. }
  assert (Sn : forall v, v < n -> v <> w -> snap s v <= counter s). { intros v Lv N. pose proof (c_snap _ I v Lv) as K. unfold snap_ok in K. now rewrite (Oth v Lv N) in K. }
  destruct stop.
  - exists o. split; [reflexivity|]. right. split; unfold awaken; fields.
    + destruct (_ && _); reflexivity.
    + intros v Hv. destruct ((w =? 0) && (n <=? 1)) eqn:B; fields.
      * apply andb_prop in B as (B1 & B2). apply Nat.eqb_eq in B1. apply Nat.leb_le in B2. left. replace v with w by lia. apply set_nat_eq.
      * unfold set_nat. destruct (Nat.eqb_spec v w) as [->|N]; [now left|]. right. rewrite (Oth v Hv N). cbn [orb].
        pose proof (cumsum_ge n n ltac:(lia)) as Cg. rewrite (in_group n _ v Hv). replace (v <? cumsum n (cond_of (n - 1))) with true by (symmetry; apply Nat.ltb_lt; lia).
        split; [reflexivity|]. pose proof (Sn v Hv N). split; [lia|]. set (cc := cumsum n (cond_of (n - 1))) in *; destruct (cc <=? w); lia.
    + intros v Hv. destruct ((w =? 0) && (n <=? 1)); fields; rewrite set_nat_neq by lia; rewrite (c_out _ I v Hv); reflexivity.
    + reflexivity.
  - set (s1 := mkSched (cnt s) (arr s) 0 nums' (loose s) (awakened s) (counter s) (snap s) (holder s) (queued s) (should_stop s) (pcs s)).
    assert (D1 : dinv s1 (mkObserved (pending o) 0 (busy o))).
    { unfold s1. split; fields.
      - apply (d_perm _ _ D).
      - apply (d_nodup _ _ D).
      - apply (d_lvl _ _ D).
      - intros v r F. elim (Nr v r F).
      - apply (d_run2 _ _ D).
      - apply (d_queued _ _ D).
      - exact Hnums.
      - intros l u Hl _. rewrite Low by exact Hl. lia.
      - intros l u _. destruct (Nat.le_gt_cases l top); [rewrite Low by assumption; lia|apply (d_other _ _ D); lia].
      - intros; lia.
      - lia.
      - reflexivity.
      - apply (d_busy _ _ D). }
    destruct (trigger_all_inv ts s1 _ D1 Inc) as (s2 & E2 & D2 & F1 & F2 & F3 & F4 & F5 & F6 & F7 & F8 & F9 & F10); unfold s1 in *; fields; auto.
    { intros u. rewrite Low by lia. lia. }
    rewrite E2. unfold ok. cbn [accepts accept]. rewrite Se, (d_level _ _ D), Ct, Nat.eqb_refl.
    replace (forallb (fun r => lvl r <=? top) ts) with true by (symmetry; apply forallb_forall; intros r Hr; apply Nat.leb_le; auto). cbn [andb].
    eexists. split; [reflexivity|]. left. apply go_on_inv; auto.
    + now rewrite F9.
    + rewrite F9. exact Oth.
    + rewrite F9. apply (c_out _ I).
    + rewrite F8. apply (c_stop _ I).
    + rewrite F3. exact L.
    + rewrite F7. apply (c_hold _ I). now rewrite E.
    + rewrite F6, F5. exact Sn.
    + rewrite F1. exact F10.
Qed.

Lemma step_ok s o e : inv s o -> allowed n top lvl size false rs s e -> ok o (step s e).
Proof.
  intros X A. destruct e as [w|w r|w|w stop ts nums'|w].
  - destruct (Nat.lt_ge_cases w n) as [Hw|Hw].
    2:{ cbn [SchedAdaptive.step]. replace (w <? n) with false by (symmetry; apply Nat.ltb_ge; lia). exact Logic.I. }
    destruct (pcs s w) as [|v|v| | | |[]|r|] eqn:E.
    + now apply step_enter.
    + now apply (step_try s o w v).
    + now apply (step_reset s o w v).
    + now apply step_locking.
    + now apply step_finishing.
    + now apply step_advancing.
    + now apply step_asleep.
    + cbn [SchedAdaptive.step]. rewrite E. destruct (w <? n); exact Logic.I.
    + cbn [SchedAdaptive.step]. rewrite E. destruct (w <? n); exact Logic.I.
    + cbn [SchedAdaptive.step]. rewrite E. destruct (w <? n); exact Logic.I.
  - now apply step_triggers.
  - now apply step_ends.
  - now apply step_tag.
  - discriminate A.
Qed.

Lemma step_stop_ok s e : inv_stop s -> allowed n top lvl size false rs s e -> match step s e with Next s' es => es = [] /\ inv_stop s' | Blocked => True | _ => False end.
Proof.
  intros I A. assert (Pc : forall w, pcs s w = Enter /\ n <= w \/ pcs s w = Ended \/ pcs s w = Asleep true).
  { intros w. destruct (Nat.lt_ge_cases w n) as [L|L]; [destruct (t_pcs _ I w L) as [H|(H & _)]; auto|left; split; [now apply (t_out _ I)|exact L]]. }
  destruct e as [w|w r|w|w stop ts nums'|w]; cbn [SchedAdaptive.step].
  - destruct (Nat.ltb_spec w n) as [Hw|]; cbn [negb]; [|exact Logic.I]. destruct (t_pcs _ I w Hw) as [E|(E & S1 & S2)]; rewrite E; [exact Logic.I|]. rewrite (t_hold _ I).
    replace (snap s w =? counter s) with false by (symmetry; apply Nat.eqb_neq; lia). replace (awakened s <=? w) with false by (symmetry; apply Nat.leb_gt; lia).
    cbn [orb]. rewrite (t_stop _ I). split; [reflexivity|]. split; fields.
    + apply (t_stop _ I).
    + intros v Hv. unfold set_nat. destruct (Nat.eqb v w); [now left|now apply (t_pcs _ I)].
    + intros v Hv. rewrite set_nat_neq by lia. now apply (t_out _ I).
    + apply (t_hold _ I).
  - destruct (Pc w) as [(-> & _)|[-> | ->]]; exact Logic.I.
  - destruct (Pc w) as [(-> & _)|[-> | ->]]; exact Logic.I.
  - destruct (Pc w) as [(-> & _)|[-> | ->]]; exact Logic.I.
  - discriminate A.
Qed.

Section Exec.
Variables (s0 : sched) (o0 : observed).
Hypothesis H0 : inv s0 o0.
Lemma exec_ok s es : exec false n top lvl size hash false rs s0 s es -> exists o, accepts n top lvl o0 es = Some o /\ (inv s o \/ inv_stop s).
Proof.
  induction 1 as [|s es e s' es' X IH A E]; [exists o0; auto|]. destruct IH as (o & Ac & I). rewrite accepts_app, Ac. destruct I as [I|I].
  - pose proof (step_ok s o e I A) as K. rewrite E in K. exact K.
  - pose proof (step_stop_ok s e I A) as K. rewrite E in K. destruct K as (-> & K). exists o. split; [reflexivity|now right].
Qed.
Lemma exec_defined s es e : exec false n top lvl size hash false rs s0 s es -> allowed n top lvl size false rs s e -> step s e <> OutOfBounds /\ step s e <> AssertFails.
Proof.
  intros X A. destruct (exec_ok s es X) as (o & _ & [I|I]); [pose proof (step_ok s o e I A) as K|pose proof (step_stop_ok s e I A) as K]; destruct (step s e); split; try discriminate; destruct K.
Qed.
Lemma exec_live s es : exec false n top lvl size hash false rs s0 s es ->
  (forall w, w < n -> pcs s w = Ended) \/ exists e s' es', allowed n top lvl size false rs s e /\ step s e = Next s' es'.
Proof.
  intros X. destruct (exec_ok s es X) as (o & _ & [I|I]).
  - right. assert (K : exists e, allowed n top lvl size false rs s e /\ step s e <> Blocked).
    2:{ destruct K as (e & A & B). pose proof (step_ok s o e I A) as K. destruct (step s e) as [s' es'| | |] eqn:Es; [exists e, s', es'; auto|destruct K|destruct K|congruence]. }
    destruct I as (D & I). destruct (holder s) as [h|] eqn:Hh.
    + assert (Hp : holds (pcs s h) = true) by now apply (c_hold _ I). destruct (pcs s h) eqn:E; try discriminate.
      * pose proof (lt_n s h _ I E ltac:(discriminate)) as L. apply Nat.ltb_lt in L. exists (Step h). split; [exact Logic.I|]. cbn [SchedAdaptive.step]. rewrite L, E. cbn [negb].
        destruct (0 <? _)%Z; [discriminate|]. destruct (_ =? _)%Z; [discriminate|]. destruct (_ <? _)%Z; [discriminate|]. destruct (_ || _); discriminate.
      * pose proof (lt_n s h _ I E ltac:(discriminate)) as L. apply Nat.ltb_lt in L. destruct (Nat.eqb_spec (current s) top) as [Ct|Nt].
        -- exists (Tag h true [] (nums s)). split; [split; [intros x []|apply (d_nums _ _ D)]|]. cbn [SchedAdaptive.step]. rewrite E, Ct, Nat.eqb_refl. discriminate.
        -- exists (Step h). split; [exact Logic.I|]. cbn [SchedAdaptive.step]. rewrite L, E. apply Nat.eqb_neq in Nt. rewrite Nt. cbn [negb]. destruct (_ =? 0)%Z; discriminate.
    + assert (Na : forall w, pcs s w <> Advancing). { intros w E. assert (holder s = Some w) by (apply (c_hold _ I); now rewrite E). congruence. }
      destruct (c_loose _ I Na) as (L1 & L2). assert (P : 0 < count active (pcs s) n) by lia.
      assert (K : exists w, w < n /\ active (pcs s w) = true).
      { clear - P. induction n as [|m IH]; [cbn in P; lia|]. rewrite count_S in P. destruct (active (pcs s m)) eqn:E; [exists m; auto|]. destruct IH as (w & Hw & Ew); [lia|]. exists w. auto. }
      destruct K as (w & Hw & Ew). assert (Hb : (w <? n) = true) by now apply Nat.ltb_lt.
      destruct (pcs s w) as [|v|v| | | |[]|r|] eqn:E; try discriminate.
      * exists (Step w). split; [exact Logic.I|]. cbn [SchedAdaptive.step]. rewrite Hb, E. discriminate.
      * exists (Step w). split; [exact Logic.I|]. cbn [SchedAdaptive.step]. rewrite Hb, E. cbn [negb]. destruct (_ <? 0)%Z; [discriminate|]. destruct (negb _); discriminate.
      * exists (Step w). split; [exact Logic.I|]. cbn [SchedAdaptive.step]. rewrite Hb, E. cbn [negb]. destruct (_ && _); discriminate.
      * exists (Step w). split; [exact Logic.I|]. cbn [SchedAdaptive.step]. rewrite Hb, E, Hh. cbn [negb]. destruct (negb _); [discriminate|]. destruct (_ =? 0)%Z; discriminate.
      * assert (holder s = Some w) by (apply (c_hold _ I); now rewrite E). congruence.
      * elim (Na w E).
      * exists (Step w). split; [exact Logic.I|]. cbn [SchedAdaptive.step]. rewrite Hb, E, Hh. cbn [negb]. destruct (_ || _); discriminate.
      * exists (Ends w). split; [exact Logic.I|]. cbn [SchedAdaptive.step]. rewrite E. destruct (queued s r); discriminate.
  - assert (K : (forall w, w < n -> pcs s w = Ended) \/ exists w, w < n /\ pcs s w = Asleep true /\ snap s w < counter s /\ w < awakened s).
    { pose proof (t_pcs _ I) as T. clear - T. induction n as [|m IH]; [left; intros; lia|]. destruct IH as [IH|(w & Hw & H)]; [auto| |right; exists w; auto].
      destruct (T m) as [H|H]; [lia| |right; exists m; auto]. left. intros w Hw. destruct (Nat.eq_dec w m) as [->|]; [exact H|apply IH; lia]. }
    destruct K as [K|(w & Hw & E & S1 & S2)]; [now left|right]. apply Nat.ltb_lt in Hw. exists (Step w). cbn [SchedAdaptive.step]. rewrite Hw, E, (t_hold _ I). cbn [negb].
    destruct (_ || _); eexists _, _; (split; [exact Logic.I|reflexivity]).
Qed.
End Exec.
End Proofs.
