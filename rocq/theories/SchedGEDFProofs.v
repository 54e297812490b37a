(** Proofs about the deadline scheduler. *)
From Verif Require Import Base SchedSpec SchedGEDF SchedGEDFSpec.
From Coq Require Import Permutation.
Open Scope nat_scope.

Definition is_idle (p : pc) : bool := match p with Waiting | Woken => true | _ => false end.
Definition runs (p : pc) : option reaction := match p with Running r => Some r | _ => None end.

Lemma remove_one_in r l l' : remove_one r l = Some l' -> NoDup l -> ~ In r l' /\ NoDup l' /\ (forall x, In x l <-> x = r \/ In x l').
Proof.
  revert l'. induction l as [|a l IH]; intros l' E N; cbn [remove_one] in E; [discriminate|]. inversion N as [|? ? Na Nl]; subst.
  destruct (Nat.eqb_spec a r) as [->|Ne].
  - injection E as <-. split; [exact Na|]. split; [exact Nl|]. intros x. cbn. intuition congruence.
  - destruct (remove_one r l) as [q|] eqn:R; [|discriminate]. injection E as <-. destruct (IH q eq_refl Nl) as (A & B & C).
    split; [cbn; intuition|]. split; [constructor; [intros H; apply Na, C; now right|exact B]|]. intros x. cbn. rewrite C. intuition.
Qed.
Lemma existsb_in r l : existsb (Nat.eqb r) l = true <-> In r l.
Proof. rewrite existsb_exists. split; [intros (x & H & E); apply Nat.eqb_eq in E; now subst|intros H; exists r; split; [exact H|apply Nat.eqb_refl]]. Qed.
Lemma existsb_notin r l : existsb (Nat.eqb r) l = false <-> ~ In r l.
Proof. rewrite <- existsb_in. destruct (existsb _ _); intuition congruence. Qed.

Section Proofs.
Variables (n top : nat) (prio : reaction -> Z) (lvl : reaction -> nat) (may : reaction -> reaction -> Prop).
Hypothesis Hn : 1 <= n.
Hypothesis Hmay : levelled top lvl may.

Record inv (s : sched) (o : observed_edf) : Prop := {
  g_stop : should_stop s = false;
  g_queue : waiting o = queue s;
  g_in : forall r, In r (queue s) -> queued s r = true /\ lvl r <= top;
  g_nodup : NoDup (queue s);
  g_run : forall w r, pcs s w = Running r -> queued s r = true /\ ~ In r (queue s) /\ lvl r = current s;
  g_run2 : forall w v r, pcs s w = Running r -> pcs s v = Running r -> w = v;
  g_queued : forall r, queued s r = true -> In r (queue s) \/ exists w, pcs s w = Running r;
  g_out : forall w, n <= w -> pcs s w = Entering;
  g_idle : idle s = count is_idle (pcs s) n;
  g_bound : idle s < n;
  g_hold : forall w, holder s = Some w <-> pcs s w = Looping;
  g_adv : forall w, pcs s w = Advancing -> queue s = [] /\ forall v, v < n -> v <> w -> pcs s v = Looping \/ is_idle (pcs s v) = true;
  g_end : forall w, pcs s w <> Ended;
  g_busy : forall w, executing o w = runs (pcs s w) }.

Record inv_stop (s : sched) : Prop := {
  h_stop : should_stop s = true;
  h_pcs : forall w, w < n -> pcs s w = Woken \/ pcs s w = Looping \/ pcs s w = Ended;
  h_out : forall w, n <= w -> pcs s w = Entering;
  h_hold : forall w, holder s = Some w <-> pcs s w = Looping }.

Definition ok (o : observed_edf) (out : outcome) : Prop :=
  match out with
  | Next s' es => exists o', accepts_edf n prio lvl o es = Some o' /\ (inv s' o' \/ inv_stop s')
  | Blocked => True
  | ErrorExit => False
  end.

Lemma lt_n s o w p : inv s o -> pcs s w = p -> p <> Entering -> w < n.
Proof. intros I E N. destruct (Nat.lt_ge_cases w n); [assumption|]. rewrite (g_out _ _ I w) in E by lia. congruence. Qed.

Lemma trigger_inv s o r : inv s o -> (forall w, pcs s w <> Running r) -> lvl r <= top ->
  (forall w, pcs s w <> Advancing) -> inv (trigger s r) (mkEdf (add_edf (waiting o) r) (executing o)).
Proof.
  intros I Nr Hl Na. unfold trigger, add_edf. rewrite (g_queue _ _ I). destruct (queued s r) eqn:Q.
  - replace (existsb (Nat.eqb r) (queue s)) with true. { rewrite <- (g_queue _ _ I). destruct o; exact I. }
    symmetry. apply existsb_in. destruct (g_queued _ _ I r Q) as [H|(w & H)]; [exact H|elim (Nr w H)].
  - assert (Nin : ~ In r (queue s)) by (intros H; destruct (g_in _ _ I r H); congruence).
    replace (existsb (Nat.eqb r) (queue s)) with false by (symmetry; now apply existsb_notin).
    split; cbn.
    + apply (g_stop _ _ I).
    + reflexivity.
    + intros x [<-|H]; [rewrite set_nat_eq; auto|]. destruct (g_in _ _ I x H). rewrite set_nat_neq by congruence. auto.
    + constructor; [exact Nin|apply (g_nodup _ _ I)].
    + intros w x E. destruct (g_run _ _ I w x E) as (A & B & C). assert (x <> r) by (intros ->; elim (Nr w E)). rewrite set_nat_neq by assumption. intuition congruence.
    + apply (g_run2 _ _ I).
    + intros x. unfold set_nat. destruct (Nat.eqb_spec x r) as [->|]; [auto|]. intros H. destruct (g_queued _ _ I x H); auto.
    + apply (g_out _ _ I).
    + apply (g_idle _ _ I).
    + apply (g_bound _ _ I).
    + apply (g_hold _ _ I).
    + intros w E. elim (Na w E).
    + apply (g_end _ _ I).
    + apply (g_busy _ _ I).
Qed.

Lemma trigger_pcs s r : pcs (trigger s r) = pcs s /\ idle (trigger s r) = idle s /\ holder (trigger s r) = holder s /\ current (trigger s r) = current s /\ should_stop (trigger s r) = should_stop s.
Proof. unfold trigger. destruct (queued s r); auto. Qed.

Lemma triggers_inv rs : forall s o, inv s o -> (forall w r, pcs s w <> Running r) -> (forall r, In r rs -> lvl r <= top) -> (forall w, pcs s w <> Advancing) ->
  inv (fold_left trigger rs s) (mkEdf (fold_left add_edf rs (waiting o)) (executing o)) /\ pcs (fold_left trigger rs s) = pcs s.
Proof.
  induction rs as [|r rs IH]; intros s o I Nr Hl Na; cbn [fold_left]; [destruct o; auto|].
  destruct (trigger_pcs s r) as (P & _). destruct (IH (trigger s r) (mkEdf (add_edf (waiting o) r) (executing o))) as (A & B).
  - apply trigger_inv; auto. apply Hl. now left.
  - intros w x. rewrite P. apply Nr.
  - intros x Hx. apply Hl. now right.
  - intros w. rewrite P. apply Na.
  - split; [exact A|]. now rewrite B.
Qed.

Lemma inv_empty : inv empty (edf0 []).
Proof.
  split; cbn.
  - reflexivity.
  - reflexivity.
  - intros r [].
  - constructor.
  - intros; discriminate.
  - intros; discriminate.
  - intros; discriminate.
  - reflexivity.
  - rewrite count_const. reflexivity.
  - lia.
  - intros w. split; discriminate.
  - intros; discriminate.
  - intros; discriminate.
  - reflexivity.
Qed.

Lemma init_inv rs : (forall r, In r rs -> lvl r <= top) -> inv (init rs) (edf0 rs).
Proof. intros H. apply (triggers_inv rs empty (edf0 [])); auto using inv_empty; cbn; intros; discriminate. Qed.

Ltac fields := cbn [should_stop queue current idle holder queued pcs set_pc wait waiting executing] in *.

Lemma step_lock s o w : inv s o -> ok o (step n top prio lvl s (Lock w)).
Proof.
  intros I. cbn [step]. destruct (Nat.ltb_spec w n) as [Hw|]; cbn [negb]; [|exact Logic.I].
  destruct (holder s) as [h|] eqn:H; [destruct (pcs s w); exact Logic.I|].
  assert (NoL : forall v, pcs s v <> Looping) by (intros v E; apply (g_hold _ _ I) in E; congruence).
  assert (G : forall i, is_idle (pcs s w) = true \/ pcs s w = Entering -> i = count is_idle (set_nat (pcs s) w Looping) n ->
    inv (mkSched (queue s) (current s) i (Some w) (queued s) (should_stop s) (set_nat (pcs s) w Looping)) o).
  { intros i Hp Hi. assert (Nrw : forall r, pcs s w <> Running r) by (intros r E; destruct Hp as [Hp|Hp]; rewrite E in Hp; discriminate).
    split; fields.
    - apply (g_stop _ _ I).
    - apply (g_queue _ _ I).
    - apply (g_in _ _ I).
    - apply (g_nodup _ _ I).
    - intros v r. unfold set_nat. destruct (Nat.eqb v w); [discriminate|apply (g_run _ _ I)].
    - intros v u r. unfold set_nat. destruct (Nat.eqb v w); [discriminate|]. destruct (Nat.eqb u w); [discriminate|]. apply (g_run2 _ _ I).
    - intros r Q. destruct (g_queued _ _ I r Q) as [|(v & E)]; [auto|right]. exists v. rewrite set_nat_neq; [exact E|]. intros ->. elim (Nrw _ E).
    - intros v Hv. rewrite set_nat_neq by lia. now apply (g_out _ _ I).
    - exact Hi.
    - pose proof (count_set is_idle (pcs s) n w Looping Hw) as C. cbn in C. pose proof (g_bound _ _ I). pose proof (g_idle _ _ I). lia.
    - intros v. unfold set_nat. destruct (Nat.eqb_spec v w) as [->|]; [tauto|]. split; [congruence|]. intros E. elim (NoL v E).
    - intros v. unfold set_nat. destruct (Nat.eqb_spec v w) as [->|]; [discriminate|]. intros E. destruct (g_adv _ _ I v E) as (A & B). split; [exact A|].
      intros u Hu Nu. destruct (Nat.eqb_spec u w); [now left|auto].
    - intros v. unfold set_nat. destruct (Nat.eqb v w); [discriminate|apply (g_end _ _ I)].
    - intros v. rewrite (g_busy _ _ I). unfold set_nat. destruct (Nat.eqb_spec v w) as [->|]; [|reflexivity]. destruct (pcs s w); try reflexivity. elim (Nrw r eq_refl). }
  destruct (pcs s w) eqn:E; try exact Logic.I.
  - exists o. split; [reflexivity|]. left. unfold set_pc. apply G; [auto|]. pose proof (count_set is_idle (pcs s) n w Looping Hw) as C. rewrite E in C. cbn in C. pose proof (g_idle _ _ I). lia.
  - exists o. split; [reflexivity|]. left. apply G; [auto|]. pose proof (count_set is_idle (pcs s) n w Looping Hw) as C. rewrite E in C. cbn in C. pose proof (g_idle _ _ I). lia.
Qed.

Lemma step_wake s o w : inv s o -> ok o (step n top prio lvl s (Wake w)).
Proof.
  intros I. cbn [step]. destruct (pcs s w) eqn:E; try exact Logic.I. pose proof (lt_n s o w _ I E ltac:(discriminate)) as Hw. exists o. split; [reflexivity|]. left. unfold set_pc.
  split; fields.
  - apply (g_stop _ _ I).
  - apply (g_queue _ _ I).
  - apply (g_in _ _ I).
  - apply (g_nodup _ _ I).
  - intros v r. unfold set_nat. destruct (Nat.eqb v w); [discriminate|apply (g_run _ _ I)].
  - intros v u r. unfold set_nat. destruct (Nat.eqb v w); [discriminate|]. destruct (Nat.eqb u w); [discriminate|]. apply (g_run2 _ _ I).
  - intros r Q. destruct (g_queued _ _ I r Q) as [|(v & E')]; [auto|right]. exists v. rewrite set_nat_neq; [exact E'|congruence].
  - intros v Hv. rewrite set_nat_neq by lia. now apply (g_out _ _ I).
  - pose proof (count_set is_idle (pcs s) n w Woken Hw) as C. rewrite E in C. cbn in C. pose proof (g_idle _ _ I). lia.
  - apply (g_bound _ _ I).
  - intros v. rewrite (g_hold _ _ I). unfold set_nat. destruct (Nat.eqb_spec v w) as [->|]; [rewrite E; split; discriminate|tauto].
  - intros v. unfold set_nat. destruct (Nat.eqb_spec v w) as [->|]; [discriminate|]. intros E'. destruct (g_adv _ _ I v E') as (A & B). split; [exact A|].
    intros u Hu Nu. destruct (Nat.eqb_spec u w); [now right|auto].
  - intros v. unfold set_nat. destruct (Nat.eqb v w); [discriminate|apply (g_end _ _ I)].
  - intros v. rewrite (g_busy _ _ I). unfold set_nat. destruct (Nat.eqb_spec v w) as [->|]; [now rewrite E|reflexivity].
Qed.

Lemma wait_inv s o w : inv s o -> w < n -> pcs s w = Looping -> idle s <> n - 1 -> inv (wait s w) o.
Proof.
  intros I Hw E Hi. pose proof (count_set is_idle (pcs s) n w Waiting Hw) as C. rewrite E in C. cbn in C. pose proof (g_idle _ _ I) as Gi. pose proof (g_bound _ _ I) as Gb.
  assert (Hh : holder s = Some w) by now apply (g_hold _ _ I).
  split; fields.
  - apply (g_stop _ _ I).
  - apply (g_queue _ _ I).
  - apply (g_in _ _ I).
  - apply (g_nodup _ _ I).
  - intros v r. unfold set_nat. destruct (Nat.eqb v w); [discriminate|apply (g_run _ _ I)].
  - intros v u r. unfold set_nat. destruct (Nat.eqb v w); [discriminate|]. destruct (Nat.eqb u w); [discriminate|]. apply (g_run2 _ _ I).
  - intros r Q. destruct (g_queued _ _ I r Q) as [|(v & E')]; [auto|right]. exists v. rewrite set_nat_neq; [exact E'|congruence].
  - intros v Hv. rewrite set_nat_neq by lia. now apply (g_out _ _ I).
  - lia.
  - lia.
  - intros v. split; [discriminate|]. unfold set_nat. destruct (Nat.eqb_spec v w) as [->|]; [discriminate|]. intros E'. apply (g_hold _ _ I) in E'. congruence.
  - intros v. unfold set_nat. destruct (Nat.eqb_spec v w) as [->|]; [discriminate|]. intros E'. destruct (g_adv _ _ I v E') as (A & B). split; [exact A|].
    intros u Hu Nu. destruct (Nat.eqb_spec u w); [now right|auto].
  - intros v. unfold set_nat. destruct (Nat.eqb v w); [discriminate|apply (g_end _ _ I)].
  - intros v. rewrite (g_busy _ _ I). unfold set_nat. destruct (Nat.eqb_spec v w) as [->|]; [now rewrite E|reflexivity].
Qed.

(** If all but one worker are idle. *)
Lemma others_idle s o w : inv s o -> w < n -> is_idle (pcs s w) = false -> idle s = n - 1 -> forall v, v < n -> v <> w -> is_idle (pcs s v) = true.
Proof. intros I Hw E Hi v Hv N. apply (count_but_one is_idle (pcs s) n w v); auto. rewrite <- (g_idle _ _ I). lia. Qed.

Lemma step_loop s o w r : inv s o -> ok o (step n top prio lvl s (Loop w r)).
Proof.
  intros I. cbn [step]. destruct (pcs s w) eqn:E; try exact Logic.I. pose proof (lt_n s o w _ I E ltac:(discriminate)) as Hw. rewrite (g_stop _ _ I).
  assert (Hh : holder s = Some w) by now apply (g_hold _ _ I).
  destruct (queue s) as [|a q] eqn:Q.
  - destruct (Nat.eqb_spec (idle s) (n - 1)) as [Hi|Hi]; [|exists o; split; [reflexivity|left; now apply wait_inv]].
    pose proof (others_idle s o w I Hw ltac:(now rewrite E) Hi) as Oth. exists o. split; [reflexivity|]. left. unfold set_pc.
    assert (Nrun : forall v x, pcs s v <> Running x). { intros v x Ev. pose proof (lt_n s o v _ I Ev ltac:(discriminate)) as Hv. destruct (Nat.eq_dec v w) as [->|Nv]; [congruence|]. specialize (Oth v Hv Nv). rewrite Ev in Oth. discriminate. }
    split; fields.
    + apply (g_stop _ _ I).
    + apply (g_queue _ _ I).
    + apply (g_in _ _ I).
    + apply (g_nodup _ _ I).
    + intros v x. unfold set_nat. destruct (Nat.eqb v w); [discriminate|apply (g_run _ _ I)].
    + intros v u x. unfold set_nat. destruct (Nat.eqb v w); [discriminate|]. destruct (Nat.eqb u w); [discriminate|]. apply (g_run2 _ _ I).
    + intros x Qx. destruct (g_queued _ _ I x Qx) as [|(v & E')]; [auto|]. elim (Nrun _ _ E').
    + intros v Hv. rewrite set_nat_neq by lia. now apply (g_out _ _ I).
    + pose proof (count_set is_idle (pcs s) n w Advancing Hw) as C. rewrite E in C. cbn in C. pose proof (g_idle _ _ I). lia.
    + apply (g_bound _ _ I).
    + intros v. split; [discriminate|]. unfold set_nat. destruct (Nat.eqb_spec v w) as [->|]; [discriminate|]. intros E'. apply (g_hold _ _ I) in E'. congruence.
    + intros v Ev. split; [exact Q|]. intros u Hu Nu. unfold set_nat in *. destruct (Nat.eqb_spec u w) as [Euw|Nuw]; [|right; auto].
      destruct (Nat.eqb_spec v w) as [Evw|Nvw]; [congruence|]. exfalso.
      specialize (Oth v (lt_n s o v _ I Ev ltac:(discriminate)) Nvw). rewrite Ev in Oth. discriminate.
    + intros v. unfold set_nat. destruct (Nat.eqb v w); [discriminate|apply (g_end _ _ I)].
    + intros v. rewrite (g_busy _ _ I). unfold set_nat. destruct (Nat.eqb_spec v w) as [->|]; [now rewrite E|reflexivity].
  - rewrite <- Q. destruct (least prio r (queue s)) eqn:L; cbn [negb]; [|exact Logic.I]. apply andb_prop in L as (L1 & L2). apply existsb_in in L1.
    assert (NoAdv : forall v, pcs s v <> Advancing). { intros v E'. destruct (g_adv _ _ I v E') as (A & _). rewrite A in L1. destruct L1. }
    destruct (Nat.eqb_spec (lvl r) (current s)) as [Lv|Lv].
    + destruct (remove_one_perm r (queue s) L1) as (q' & R & _). rewrite R. destruct (remove_one_in r _ _ R (g_nodup _ _ I)) as (R1 & R2 & R3).
      unfold ok. cbn [accepts_edf accept_edf]. rewrite (g_busy _ _ I), E, (g_queue _ _ I), R. cbn [runs].
      rewrite L2. replace (w <? n) with true by (symmetry; now apply Nat.ltb_lt).
      replace (forallb _ (seq 0 n)) with true.
      2:{ symmetry. apply forallb_forall. intros v _. rewrite (g_busy _ _ I). destruct (pcs s v) as [| | | | |x|] eqn:Ev; cbn [runs]; try reflexivity. destruct (g_run _ _ I v x Ev) as (_ & _ & Lx). apply Nat.eqb_eq. congruence. }
      cbn [andb]. eexists. split; [reflexivity|]. left. destruct (g_in _ _ I r L1) as (Qr & _).
      assert (Nrr : forall v, pcs s v <> Running r). { intros v Ev. destruct (g_run _ _ I v r Ev) as (_ & H & _). contradiction. }
      split; fields.
      * reflexivity.
      * reflexivity.
      * intros x Hx. apply (g_in _ _ I). apply R3. now right.
      * exact R2.
      * intros v x. unfold set_nat. destruct (Nat.eqb v w); [intros [= <-]; auto|]. intros Ev. destruct (g_run _ _ I v x Ev) as (A & B & C). split; [exact A|]. split; [|exact C]. intros H. apply B, R3. now right.
      * intros v u x. unfold set_nat. destruct (Nat.eqb_spec v w) as [->|], (Nat.eqb_spec u w) as [->|]; auto; [intros [= <-] H; elim (Nrr _ H)|intros H [= <-]; elim (Nrr _ H)|apply (g_run2 _ _ I)].
      * intros x Qx. destruct (g_queued _ _ I x Qx) as [H|(v & Ev)].
        -- apply R3 in H. destruct H as [->|H]; [right; exists w; apply set_nat_eq|now left].
        -- right. exists v. rewrite set_nat_neq; [exact Ev|congruence].
      * intros v Hv. rewrite set_nat_neq by lia. now apply (g_out _ _ I).
      * pose proof (count_set is_idle (pcs s) n w (Running r) Hw) as C. rewrite E in C. cbn in C. pose proof (g_idle _ _ I). lia.
      * apply (g_bound _ _ I).
      * intros v. split; [discriminate|]. unfold set_nat. destruct (Nat.eqb_spec v w) as [->|]; [discriminate|]. intros E'. apply (g_hold _ _ I) in E'. congruence.
      * intros v. unfold set_nat. destruct (Nat.eqb_spec v w); [discriminate|]. intros Ev. elim (NoAdv v Ev).
      * intros v. unfold set_nat. destruct (Nat.eqb v w); [discriminate|apply (g_end _ _ I)].
      * intros v. unfold set_nat. destruct (Nat.eqb v w); [reflexivity|apply (g_busy _ _ I)].
    + destruct (Nat.eqb_spec (idle s) (n - 1)) as [Hi|Hi]; [|exists o; split; [reflexivity|left; now apply wait_inv]].
      pose proof (others_idle s o w I Hw ltac:(now rewrite E) Hi) as Oth. exists o. split; [reflexivity|]. left.
      assert (Nrun : forall v x, pcs s v <> Running x). { intros v x Ev. pose proof (lt_n s o v _ I Ev ltac:(discriminate)) as Hv. destruct (Nat.eq_dec v w) as [->|Nv]; [congruence|]. specialize (Oth v Hv Nv). rewrite Ev in Oth. discriminate. }
      split; fields.
      * reflexivity.
      * apply (g_queue _ _ I).
      * apply (g_in _ _ I).
      * apply (g_nodup _ _ I).
      * intros v x Ev. elim (Nrun _ _ Ev).
      * apply (g_run2 _ _ I).
      * apply (g_queued _ _ I).
      * apply (g_out _ _ I).
      * apply (g_idle _ _ I).
      * apply (g_bound _ _ I).
      * apply (g_hold _ _ I).
      * apply (g_adv _ _ I).
      * apply (g_end _ _ I).
      * apply (g_busy _ _ I).
Qed.

Lemma no_adv s o w q : inv s o -> pcs s w = Running q -> forall v, pcs s v <> Advancing.
Proof.
  intros I E v Ev. destruct (g_adv _ _ I v Ev) as (_ & A). pose proof (lt_n s o w _ I E ltac:(discriminate)) as Hw.
  destruct (A w Hw ltac:(congruence)) as [B|B]; rewrite E in B; discriminate.
Qed.

Lemma step_triggers s o w r : inv s o -> allowed top lvl may s (Triggers w r) -> ok o (step n top prio lvl s (Triggers w r)).
Proof.
  intros I. cbn [step allowed]. destruct (pcs s w) as [| | | | |q|] eqn:E; try (intros _; exact Logic.I). intros M. apply Hmay in M.
  destruct (holder s); [exact Logic.I|]. unfold ok. cbn [accepts_edf accept_edf]. rewrite (g_busy _ _ I), E. cbn [runs].
  eexists. split; [reflexivity|]. left. apply trigger_inv; auto; [|lia|eapply no_adv; eassumption].
  intros v Ev. destruct (g_run _ _ I v r Ev) as (_ & _ & A). destruct (g_run _ _ I w q E) as (_ & _ & B). lia.
Qed.

Lemma step_ends s o w : inv s o -> ok o (step n top prio lvl s (Ends w)).
Proof.
  intros I. cbn [step]. destruct (pcs s w) as [| | | | |q|] eqn:E; try exact Logic.I. destruct (g_run _ _ I w q E) as (Qq & Nq & Lq). rewrite Qq.
  pose proof (lt_n s o w _ I E ltac:(discriminate)) as Hw. pose proof (no_adv _ _ _ _ I E) as Na.
  unfold ok. cbn [accepts_edf accept_edf]. rewrite (g_busy _ _ I), E. cbn [runs]. eexists. split; [reflexivity|]. left.
  split; fields.
  - apply (g_stop _ _ I).
  - apply (g_queue _ _ I).
  - intros x Hx. destruct (g_in _ _ I x Hx). rewrite set_nat_neq by (intros ->; contradiction). auto.
  - apply (g_nodup _ _ I).
  - intros v x. unfold set_nat at 1. destruct (Nat.eqb_spec v w) as [|Nv]; [discriminate|]. intros Ev. destruct (g_run _ _ I v x Ev) as (A & B). rewrite set_nat_neq; [auto|].
    intros ->. apply Nv. eapply (g_run2 _ _ I); eassumption.
  - intros v u x. unfold set_nat. destruct (Nat.eqb v w); [discriminate|]. destruct (Nat.eqb u w); [discriminate|]. apply (g_run2 _ _ I).
  - intros x. unfold set_nat. destruct (Nat.eqb_spec x q) as [|Nx]; [discriminate|]. intros H. destruct (g_queued _ _ I x H) as [|(v & Ev)]; [auto|right]. exists v.
    destruct (Nat.eqb_spec v w) as [->|]; [congruence|exact Ev].
  - intros v Hv. rewrite set_nat_neq by lia. now apply (g_out _ _ I).
  - pose proof (count_set is_idle (pcs s) n w Entering Hw) as C. rewrite E in C. cbn in C. pose proof (g_idle _ _ I). lia.
  - apply (g_bound _ _ I).
  - intros v. rewrite (g_hold _ _ I). unfold set_nat. destruct (Nat.eqb_spec v w) as [->|]; [rewrite E; split; discriminate|tauto].
  - intros v. unfold set_nat. destruct (Nat.eqb v w); [discriminate|]. intros Ev. elim (Na v Ev).
  - intros v. unfold set_nat. destruct (Nat.eqb v w); [discriminate|apply (g_end _ _ I)].
  - intros v. unfold set_nat. destruct (Nat.eqb v w); [reflexivity|apply (g_busy _ _ I)].
Qed.

Lemma triggers_commute rs c h p : forall s,
  mkSched (queue (fold_left trigger rs s)) c (idle (fold_left trigger rs s)) h (queued (fold_left trigger rs s)) (should_stop (fold_left trigger rs s)) p
  = fold_left trigger rs (mkSched (queue s) c (idle s) h (queued s) (should_stop s) p).
Proof.
  induction rs as [|r rs IH]; intros s; cbn [fold_left]; [reflexivity|]. rewrite IH. f_equal. unfold trigger; fields. destruct (queued s r); reflexivity.
Qed.
Lemma triggers_pcs rs : forall s, pcs (fold_left trigger rs s) = pcs s.
Proof. induction rs as [|r rs IH]; intros s; cbn [fold_left]; [reflexivity|]. rewrite IH. apply trigger_pcs. Qed.

Lemma step_tag s o w stop rs : inv s o -> allowed top lvl may s (Tag w stop rs) -> ok o (step n top prio lvl s (Tag w stop rs)).
Proof.
  intros I. cbn [step allowed]. intros Hrs. destruct (pcs s w) as [| | | | |q|] eqn:E; try exact Logic.I. destruct (holder s) eqn:Hh; [exact Logic.I|].
  pose proof (lt_n s o w _ I E ltac:(discriminate)) as Hw. destruct (g_adv _ _ I w E) as (Qe & A).
  assert (NoL : forall v, pcs s v <> Looping) by (intros v Ev; apply (g_hold _ _ I) in Ev; congruence).
  assert (A' : forall v, v < n -> v <> w -> is_idle (pcs s v) = true) by (intros v Hv Nv; destruct (A v Hv Nv) as [B|B]; [elim (NoL _ B)|exact B]).
  destruct stop.
  - exists o. split; [reflexivity|]. right. split; fields.
    + reflexivity.
    + intros v Hv. unfold set_nat. destruct (Nat.eqb_spec v w); [auto|]. specialize (A' v Hv ltac:(assumption)). destruct (pcs s v); try discriminate; auto.
    + intros v Hv. rewrite set_nat_neq by lia. now rewrite (g_out _ _ I v Hv).
    + intros v. split; [discriminate|]. unfold set_nat. destruct (Nat.eqb v w); [discriminate|]. destruct (pcs s v) eqn:Ev; try discriminate. elim (NoL v Ev).
  - assert (Nrun : forall v x, pcs s v <> Running x). { intros v x Ev. pose proof (lt_n s o v _ I Ev ltac:(discriminate)) as Hv. destruct (Nat.eq_dec v w) as [->|Nv]; [congruence|]. specialize (A' v Hv Nv). rewrite Ev in A'. discriminate. }
    assert (Nadv : forall v, v <> w -> pcs s v <> Advancing). { intros v Nv Ev. pose proof (lt_n s o v _ I Ev ltac:(discriminate)) as Hv. specialize (A' v Hv Nv). rewrite Ev in A'. discriminate. }
    cbv zeta. rewrite triggers_commute, triggers_pcs.
    unfold ok. cbn [accepts_edf accept_edf]. rewrite (g_queue _ _ I), Qe. cbn [is_nil andb].
    replace (forallb _ (seq 0 n)) with true.
    2:{ symmetry. apply forallb_forall. intros v _. rewrite (g_busy _ _ I). destruct (pcs s v) eqn:Ev; try reflexivity. elim (Nrun _ _ Ev). }
    eexists. split; [reflexivity|]. left.
    refine (proj1 (triggers_inv rs _ (mkEdf [] (executing o)) _ _ Hrs _)); fields.
    2:{ intros v x. unfold set_nat. destruct (Nat.eqb v w); [discriminate|apply Nrun]. }
    2:{ intros v. unfold set_nat. destruct (Nat.eqb_spec v w); [discriminate|auto]. }
    split; fields.
    + apply (g_stop _ _ I).
    + reflexivity.
    + intros x [].
    + constructor.
    + intros v x. unfold set_nat. destruct (Nat.eqb v w); [discriminate|]. intros Ev. elim (Nrun _ _ Ev).
    + intros v u x. unfold set_nat. destruct (Nat.eqb v w); [discriminate|]. intros Ev. elim (Nrun _ _ Ev).
    + intros x Qx. destruct (g_queued _ _ I x Qx) as [H|(v & Ev)]; [rewrite Qe in H; now left|]. elim (Nrun _ _ Ev).
    + intros v Hv. rewrite set_nat_neq by lia. now apply (g_out _ _ I).
    + pose proof (count_set is_idle (pcs s) n w Looping Hw) as C. rewrite E in C. cbn in C. pose proof (g_idle _ _ I). lia.
    + apply (g_bound _ _ I).
    + intros v. unfold set_nat. destruct (Nat.eqb_spec v w) as [->|]; [tauto|]. split; [congruence|]. intros Ev. elim (NoL v Ev).
    + intros v. unfold set_nat. destruct (Nat.eqb_spec v w); [discriminate|]. intros Ev. elim (Nadv v ltac:(assumption) Ev).
    + intros v. unfold set_nat. destruct (Nat.eqb v w); [discriminate|apply (g_end _ _ I)].
    + intros v. rewrite (g_busy _ _ I). unfold set_nat. destruct (Nat.eqb_spec v w) as [->|]; [now rewrite E|reflexivity].
Qed.

Lemma step_ok s o e : inv s o -> allowed top lvl may s e -> ok o (step n top prio lvl s e).
Proof.
  intros I A. destruct e.
  - now apply step_lock.
  - now apply step_wake.
  - now apply step_loop.
  - now apply step_triggers.
  - now apply step_ends.
  - now apply step_tag.
Qed.

Lemma step_stop_ok s e : inv_stop s -> match step n top prio lvl s e with Next s' es => es = [] /\ inv_stop s' | Blocked => True | ErrorExit => False end.
Proof.
  intros I. destruct e as [w|w|w r|w r|w|w stop rs]; cbn [step].
  - destruct (Nat.ltb_spec w n) as [Hw|]; cbn [negb]; [|exact Logic.I].
    destruct (h_pcs _ I w Hw) as [E|[E|E]]; rewrite E; try exact Logic.I. destruct (holder s) eqn:Hh; [exact Logic.I|]. split; [reflexivity|]. split; fields.
    + apply (h_stop _ I).
    + intros v Hv. unfold set_nat. destruct (Nat.eqb v w); [auto|now apply (h_pcs _ I)].
    + intros v Hv. rewrite set_nat_neq by lia. now apply (h_out _ I).
    + intros v. unfold set_nat. destruct (Nat.eqb_spec v w) as [->|]; [tauto|]. rewrite <- (h_hold _ I v). split; congruence.
  - destruct (Nat.lt_ge_cases w n) as [Hw|Hw]; [destruct (h_pcs _ I w Hw) as [E|[E|E]]; rewrite E; exact Logic.I|rewrite (h_out _ I w Hw); exact Logic.I].
  - destruct (pcs s w) eqn:E; try exact Logic.I. rewrite (h_stop _ I). split; [reflexivity|]. assert (Hh : holder s = Some w) by now apply (h_hold _ I). unfold set_pc. split; fields.
    + apply (h_stop _ I).
    + intros v Hv. unfold set_nat. destruct (Nat.eqb v w); [auto|now apply (h_pcs _ I)].
    + intros v Hv. rewrite set_nat_neq; [now apply (h_out _ I)|]. intros ->. rewrite (h_out _ I w Hv) in E. discriminate.
    + intros v. split; [discriminate|]. unfold set_nat. destruct (Nat.eqb_spec v w) as [->|]; [discriminate|]. rewrite <- (h_hold _ I v). congruence.
  - destruct (Nat.lt_ge_cases w n) as [Hw|Hw]; [destruct (h_pcs _ I w Hw) as [E|[E|E]]; rewrite E; exact Logic.I|rewrite (h_out _ I w Hw); exact Logic.I].
  - destruct (Nat.lt_ge_cases w n) as [Hw|Hw]; [destruct (h_pcs _ I w Hw) as [E|[E|E]]; rewrite E; exact Logic.I|rewrite (h_out _ I w Hw); exact Logic.I].
  - destruct (Nat.lt_ge_cases w n) as [Hw|Hw]; [destruct (h_pcs _ I w Hw) as [E|[E|E]]; rewrite E; exact Logic.I|rewrite (h_out _ I w Hw); exact Logic.I].
Qed.

Lemma accepts_edf_app : forall es es' o, accepts_edf n prio lvl o (es ++ es') = match accepts_edf n prio lvl o es with Some o => accepts_edf n prio lvl o es' | None => None end.
Proof. induction es as [|e es IH]; intros es' o; cbn; [reflexivity|]. destruct (accept_edf n prio lvl o e); auto. Qed.

Section Exec.
Variable rs : list reaction.
Hypothesis Hrs : forall r, In r rs -> lvl r <= top.

Lemma exec_inv s es : exec n top prio lvl may (init rs) s es -> exists o, accepts_edf n prio lvl (edf0 rs) es = Some o /\ (inv s o \/ inv_stop s).
Proof.
  induction 1 as [|s es e s' es' X IH A E]; [exists (edf0 rs); split; [reflexivity|left; now apply init_inv]|].
  destruct IH as (o & Ac & I). rewrite accepts_edf_app, Ac. destruct I as [I|I].
  - pose proof (step_ok s o e I A) as K. rewrite E in K. exact K.
  - pose proof (step_stop_ok s e I) as K. rewrite E in K. destruct K as (-> & K). exists o. split; [reflexivity|now right].
Qed.

Lemma exec_defined s es e : exec n top prio lvl may (init rs) s es -> allowed top lvl may s e -> step n top prio lvl s e <> ErrorExit.
Proof.
  intros X A E. destruct (exec_inv s es X) as (o & _ & [I|I]); [pose proof (step_ok s o e I A) as K|pose proof (step_stop_ok s e I) as K]; rewrite E in K; exact K.
Qed.

Lemma least_exists q : q <> [] -> exists r, least prio r q = true.
Proof.
  assert (K : forall q, q <> [] -> exists r, In r q /\ forall x, In x q -> (prio r <= prio x)%Z).
  { intros l. induction l as [|a l IH]; [congruence|]. intros _. destruct l as [|b l]; [exists a; split; [now left|]; intros x [<-|[]]; lia|].
    destruct (IH ltac:(discriminate)) as (r & R & M). destruct (Z.le_gt_cases (prio a) (prio r)).
    - exists a. split; [now left|]. intros x [<-|Hx]; [lia|]. specialize (M x Hx). lia.
    - exists r. split; [now right|]. intros x [<-|Hx]; [lia|auto]. }
  intros H. destruct (K q H) as (r & R & M). exists r. unfold least. apply andb_true_intro. split; [now apply existsb_in|]. apply forallb_forall. intros x Hx. apply Z.leb_le. auto.
Qed.

Lemma loop_live s w : pcs s w = Looping -> exists r s' es, step n top prio lvl s (Loop w r) = Next s' es.
Proof.
  intros E. cbn [step]. rewrite E. destruct (should_stop s); [exists 0, (set_pc s w Ended None), []; reflexivity|].
  destruct (queue s) as [|a q] eqn:Q; [exists 0; destruct (idle s =? n - 1); eauto|].
  destruct (least_exists (a :: q) ltac:(discriminate)) as (r & L). exists r. rewrite L. cbn [negb]. destruct (lvl r =? current s).
  - apply andb_prop in L as (L & _). apply existsb_in in L. destruct (remove_one_perm r (a :: q) L) as (q' & -> & _). eauto.
  - destruct (idle s =? n - 1); eauto.
Qed.

Lemma exec_live s es : exec n top prio lvl may (init rs) s es -> (exists w, w < n /\ pcs s w <> Ended) ->
  exists e s' es', (forall w, e <> Wake w) /\ allowed top lvl may s e /\ step n top prio lvl s e = Next s' es'.
Proof.
  intros X (u & Hu & Eu). destruct (exec_inv s es X) as (o & _ & I).
  assert (Hol : forall w, holder s = Some w -> pcs s w = Looping) by (intros w; destruct I as [I|I]; [apply (g_hold _ _ I)|apply (h_hold _ I)]).
  destruct (holder s) as [w|] eqn:Hh.
  - destruct (loop_live s w (Hol w eq_refl)) as (r & s' & es' & S). exists (Loop w r), s', es'. split; [discriminate|]. split; [exact Logic.I|exact S].
  - destruct I as [I|I].
    + assert (K : exists w, w < n /\ is_idle (pcs s w) = false).
      { pose proof (g_bound _ _ I) as B. rewrite (g_idle _ _ I) in B. clear - B. induction n as [|m IH]; [cbn in B; lia|]. rewrite count_S in B. destruct (is_idle (pcs s m)) eqn:E; [|exists m; auto].
        destruct IH as (w & Hw & Ew); [lia|]. exists w. auto. }
      destruct K as (w & Hw & Ew). destruct (pcs s w) as [| | | | |q|] eqn:E; try discriminate.
      * exists (Lock w). cbn [step allowed]. apply Nat.ltb_lt in Hw. rewrite Hw, E, Hh. cbn [negb]. eexists _, _. split; [discriminate|]. split; [exact Logic.I|reflexivity].
      * apply (g_hold _ _ I) in E. congruence.
      * exists (Tag w true []). cbn [step allowed]. rewrite E, Hh. eexists _, _. split; [discriminate|]. split; [intros r []|reflexivity].
      * exists (Ends w). cbn [step allowed]. rewrite E. destruct (g_run _ _ I w q E) as (-> & _). eexists _, _. split; [discriminate|]. split; [exact Logic.I|reflexivity].
      * elim (g_end _ _ I w E).
    + destruct (h_pcs _ I u Hu) as [E|[E|E]]; [|apply (h_hold _ I) in E; congruence|congruence].
      exists (Lock u). cbn [step allowed]. apply Nat.ltb_lt in Hu. rewrite Hu, E, Hh. cbn [negb]. eexists _, _. split; [discriminate|]. split; [exact Logic.I|reflexivity].
Qed.

(** * With inherited deadlines *)
Hypothesis Hinh : inherits prio may.
Definition after (x d : reaction) : Prop := (prio d <= prio x)%Z \/ lvl d <= lvl x.

Record once (o : observed_edf) (T : list reaction) : Prop := {
  t_nodup : NoDup T;
  t_new : forall x, In x (waiting o) -> ~ In x T;
  t_after : forall d x, In d T -> In x (waiting o) \/ (exists w, executing o w = Some x) -> after x d;
  t_order : ForallOrdPairs after T }.

Lemma taken_app : forall es es' T, taken T (es ++ es') = taken (taken T es) es'.
Proof. induction es as [|e es IH]; intros es' T; cbn; [reflexivity|]. destruct e; auto. Qed.

Lemma in_add_edf l r x : In x (add_edf l r) <-> x = r \/ In x l.
Proof. unfold add_edf. destruct (existsb (Nat.eqb r) l) eqn:E; [apply existsb_in in E; split; [auto|intros [->|]; auto]|cbn; intuition]. Qed.

Lemma once_events s es : exec n top prio lvl may (init rs) s es -> forall o, accepts_edf n prio lvl (edf0 rs) es = Some o -> once o (taken [] es).
Proof.
  induction 1 as [|s es e s' es' X IH A E]; intros o Ac.
  { injection Ac as <-. split; [constructor|intros x _ []|intros d x []|constructor]. }
  rewrite accepts_edf_app in Ac. rewrite taken_app. destruct (exec_inv s es X) as (o1 & Ac1 & I). rewrite Ac1 in Ac. specialize (IH o1 Ac1). clear Ac1.
  destruct I as [I|I].
  2:{ pose proof (step_stop_ok s e I) as K. rewrite E in K. destruct K as (-> & _). injection Ac as <-. exact IH. }
  destruct e as [w|w|w r|w r|w|w stop ts]; cbn [step] in E.
  - destruct (negb (w <? n)); [discriminate|]. destruct (pcs s w), (holder s); try discriminate; injection E as <- <-; injection Ac as <-; exact IH.
  - destruct (pcs s w); try discriminate; injection E as <- <-; injection Ac as <-; exact IH.
  - destruct (pcs s w) eqn:Ew; try discriminate. rewrite (g_stop _ _ I) in E. destruct (queue s) as [|a q] eqn:Q.
    { destruct (idle s =? n - 1); injection E as <- <-; injection Ac as <-; exact IH. }
    rewrite <- Q in E. destruct (least prio r (queue s)) eqn:L; cbn [negb] in E; [|discriminate].
    destruct (lvl r =? current s) eqn:Lv; [|destruct (idle s =? n - 1); injection E as <- <-; injection Ac as <-; exact IH].
    destruct (remove_one r (queue s)) as [q'|] eqn:R; [|discriminate]. injection E as <- <-.
    destruct (remove_one_in r _ _ R (g_nodup _ _ I)) as (R1 & R2 & R3). apply Nat.eqb_eq in Lv. apply andb_prop in L as (L1 & L2). apply existsb_in in L1. rewrite forallb_forall in L2.
    cbn [accepts_edf accept_edf taken] in *. rewrite (g_busy _ _ I), Ew, (g_queue _ _ I), R in Ac. cbn [runs] in Ac.
    destruct (_ && _ && _); [|discriminate]. injection Ac as <-.
    pose proof (t_nodup _ _ IH) as T1. pose proof (t_new _ _ IH) as T2. pose proof (t_after _ _ IH) as T3. rewrite (g_queue _ _ I) in T2, T3.
    split; cbn [waiting executing].
    + constructor; [now apply T2|exact T1].
    + intros x Hx [<-|H]; [contradiction|]. apply (T2 x); [apply R3; now right|exact H].
    + intros d x [<-|Hd] Hx.
      * destruct Hx as [Hx|(v & Hv)].
        -- left. apply Z.leb_le, L2, R3. now right.
        -- right. unfold set_nat in Hv. destruct (Nat.eqb v w); [injection Hv as <-; lia|]. rewrite (g_busy _ _ I) in Hv.
           destruct (pcs s v) eqn:Ev; try discriminate. injection Hv as ->. destruct (g_run _ _ I v x Ev) as (_ & _ & B). lia.
      * apply T3; [exact Hd|]. destruct Hx as [Hx|(v & Hv)]; [left; apply R3; now right|]. unfold set_nat in Hv. destruct (Nat.eqb v w); [injection Hv as <-; now left|right; eauto].
    + constructor; [|apply (t_order _ _ IH)]. apply Forall_forall. intros d Hd. apply T3; auto.
  - destruct (pcs s w) as [| | | | |q|] eqn:Ew; try discriminate. destruct (holder s); try discriminate. injection E as <- <-. cbn [allowed] in A. rewrite Ew in A.
    cbn [accepts_edf accept_edf taken] in *. pose proof (g_busy _ _ I w) as Bw. rewrite Ew in Bw. cbn [runs] in Bw. rewrite Bw in Ac. injection Ac as <-.
    pose proof (Hmay q r A) as Lv. pose proof (Hinh q r A) as Pr.
    assert (K : forall d, In d (taken [] es) -> after r d /\ r <> d).
    { intros d Hd. destruct (t_after _ _ IH d q Hd ltac:(right; eauto)) as [H|H]; (split; [|intros ->; lia]); [left|right]; lia. }
    split; cbn [waiting executing].
    + apply (t_nodup _ _ IH).
    + intros x Hx. apply in_add_edf in Hx as [->|Hx]; [intros H; now destruct (K _ H)|now apply (t_new _ _ IH)].
    + intros d x Hd [Hx|Hx]; [apply in_add_edf in Hx as [->|Hx]; [now apply K|]|]; apply (t_after _ _ IH); auto.
    + apply (t_order _ _ IH).
  - destruct (pcs s w) as [| | | | |q|] eqn:Ew; try discriminate. destruct (queued s q); [|discriminate]. injection E as <- <-.
    cbn [accepts_edf accept_edf taken] in *. destruct (executing o1 w); [|discriminate]. injection Ac as <-.
    split; cbn [waiting executing]; [apply (t_nodup _ _ IH)|apply (t_new _ _ IH)| |apply (t_order _ _ IH)].
    intros d x Hd Hx. apply (t_after _ _ IH); [exact Hd|]. destruct Hx as [Hx|(v & Hv)]; [auto|]. unfold set_nat in Hv. destruct (Nat.eqb v w); [discriminate|eauto].
  - destruct (pcs s w) as [| | | | |q|] eqn:Ew; try discriminate. destruct (holder s); try discriminate. destruct stop; injection E as <- <-; [injection Ac as <-; exact IH|].
    cbn [taken]. split; [constructor|intros x _ []|intros d x []|constructor].
Qed.
End Exec.
End Proofs.
