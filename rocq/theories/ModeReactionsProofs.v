(** Proofs about the reactions of modes to startup, reset and shutdown. *)
From Verif Require Import Base Tag TagSpec TagProofs.
From Verif Require TagBarrierProofs.
Import TagBarrierProofs.
From Verif Require Import Modes ModesSpec ModesProofs ModesEventsProofs ModesSwitchProofs ModeReactions ModeReactionsSpec.

Lemma memb_in r l : memb r l = true <-> In r l.
Proof. unfold memb. rewrite existsb_exists. split; [intros (a & A & B); apply Nat.eqb_eq in B; now subst|intros H; exists r; now rewrite Nat.eqb_refl]. Qed.
Lemma memb_not r l : memb r l = false <-> ~ In r l.
Proof. rewrite <- memb_in. now destruct (memb r l). Qed.
Lemma nodup_snoc (l : list nat) r : NoDup l -> ~ In r l -> NoDup (l ++ [r]).
Proof. intros N H. rewrite <- (rev_involutive l). change ([r]) with (rev [r]). rewrite <- rev_app_distr. apply NoDup_rev. cbn. constructor; [now rewrite <- in_rev|now apply NoDup_rev]. Qed.

Section P.
Variable p : program.
Variable x : reactions.

(** ** The loops over the arrays of reactions *)
Lemma trigger_keeps s r : base (trigger x s r) = base s /\ released (trigger x s r) = released s.
Proof. unfold trigger. destruct (is_active _ _); [|auto]. destruct (memb _ _); auto. Qed.
Lemma trigger_queue s r y : In y (queued (trigger x s r)) <-> In y (queued s) \/ y = r /\ is_active (base s) (mode_of x s r) = true.
Proof.
  unfold trigger. destruct (is_active _ _); [|intuition discriminate]. destruct (memb r (queued s)) eqn:M.
  - apply memb_in in M. intuition (subst; auto).
  - cbn. rewrite in_app_iff. cbn. intuition.
Qed.
Lemma trigger_nodup s r : NoDup (queued s) -> NoDup (queued (trigger x s r)).
Proof. unfold trigger. destruct (is_active _ _); [|auto]. destruct (memb r (queued s)) eqn:M; [auto|]. apply memb_not in M. cbn. intros N. now apply nodup_snoc. Qed.

Definition wants (need : mflags -> bool) (s : mstate) (y : nat) : Prop :=
  exists m, mode_of x s y = Some m /\ act (flags (base s) m) = true /\ need (flags (base s) m) = true.
Lemma trigger_ones need l : forall s, let s' := fold_left (trigger_one x need) l s in
  base s' = base s /\ released s' = released s /\ (NoDup (queued s) -> NoDup (queued s')) /\
  forall y, In y (queued s') <-> In y (queued s) \/ In y l /\ wants need s y.
Proof.
  induction l as [|r l IH]; intros s; cbn [fold_left]; [cbn; intuition|].
  assert (base (trigger_one x need s r) = base s /\ released (trigger_one x need s r) = released s /\ (NoDup (queued s) -> NoDup (queued (trigger_one x need s r))) /\
    forall y, In y (queued (trigger_one x need s r)) <-> In y (queued s) \/ y = r /\ wants need s y) as (A & B & C & D).
  { unfold trigger_one. destruct (mode_of x s r) as [m|] eqn:M.
    - destruct (negb (memb r (queued s)) && is_active (base s) (Some m) && need (flags (base s) m)) eqn:G.
      + apply andb_true_iff in G. destruct G as (G & G3). apply andb_true_iff in G. destruct G as (G1 & G2).
        destruct (trigger_keeps s r) as (K1 & K2). split; [exact K1|]. split; [exact K2|]. split; [apply trigger_nodup|]. intros y. rewrite trigger_queue. rewrite M. cbn [is_active] in *.
        split; [intros [H|(H & _)]; [now left|right; split; [exact H|]; subst y; now exists m]|]. intros [H|(H & _)]; [now left|right; auto].
      + split; [reflexivity|]. split; [reflexivity|]. split; [auto|]. intros y. split; [now left|]. intros [H|(-> & m' & H1 & H2 & H3)]; [exact H|]. rewrite M in H1. injection H1 as <-. cbn [is_active] in G. rewrite H2, H3, !andb_true_r in G.
        apply negb_false_iff, memb_in in G. exact G.
    - split; [reflexivity|]. split; [reflexivity|]. split; [auto|]. intros y. split; [now left|]. intros [H|(-> & m' & H1 & _)]; [exact H|congruence]. }
  destruct (IH (trigger_one x need s r)) as (E & F & G & H). cbv zeta. rewrite E, F, A, B. split; [reflexivity|]. split; [reflexivity|]. split; [auto|].
  intros y. rewrite H, D. assert (wants need (trigger_one x need s r) y <-> wants need s y) as W by (unfold wants, mode_of; now rewrite A, B). rewrite W. cbn [In]. intuition (subst; auto).
Qed.

Lemma plains l : forall s, let s' := fold_left (plain x) l s in
  base s' = base s /\ released s' = released s /\ (NoDup (queued s) -> NoDup (queued s')) /\
  forall y, In y (queued s') <-> In y (queued s) \/ In y l /\ mode_of x s y = None.
Proof.
  induction l as [|r l IH]; intros s; cbn [fold_left]; [cbn; intuition|].
  assert (base (plain x s r) = base s /\ released (plain x s r) = released s /\ (NoDup (queued s) -> NoDup (queued (plain x s r))) /\
    forall y, In y (queued (plain x s r)) <-> In y (queued s) \/ y = r /\ mode_of x s y = None) as (A & B & C & D).
  { unfold plain. destruct (mode_of x s r) as [m|] eqn:M.
    - split; [reflexivity|]. split; [reflexivity|]. split; [auto|]. intros y. split; [now left|]. intros [H|(-> & H)]; [exact H|congruence].
    - destruct (trigger_keeps s r) as (K1 & K2). split; [exact K1|]. split; [exact K2|]. split; [apply trigger_nodup|]. intros y. rewrite trigger_queue, M. cbn [is_active].
      split; (intros [H|(H & _)]; [now left|right; subst; auto]). }
  destruct (IH (plain x s r)) as (E & F & G & H). cbv zeta. rewrite E, F, A, B. split; [reflexivity|]. split; [reflexivity|]. split; [auto|].
  intros y. rewrite H, D. assert (mode_of x (plain x s r) y = mode_of x s y) as W by (unfold mode_of; now rewrite B). rewrite W. cbn [In]. intuition (subst; auto).
Qed.

Definition had (s : mstate) (y : nat) : Prop := exists m, mode_of x s y = Some m /\ had_startup (flags (base s) m) = true.
Lemma releases l : forall s, let s' := fold_left (release_one x) l s in
  base s' = base s /\ (NoDup (queued s) -> NoDup (queued s')) /\
  (forall y, In y (queued s') <-> In y (queued s) \/ In y l /\ had s y) /\
  (forall y, mode_of x s' y <> mode_of x s y -> In y l /\ had s y /\ mode_of x s' y = None).
Proof.
  induction l as [|r l IH]; intros s; cbn [fold_left]; [cbn; intuition|].
  assert (base (release_one x s r) = base s /\ (NoDup (queued s) -> NoDup (queued (release_one x s r))) /\
    (forall y, In y (queued (release_one x s r)) <-> In y (queued s) \/ y = r /\ had s y) /\
    (forall y, mode_of x (release_one x s r) y = mode_of x s y \/ y = r /\ had s y /\ mode_of x (release_one x s r) y = None)) as (A & C & D & M').
  { unfold release_one. destruct (mode_of x s r) as [m|] eqn:M.
    - destruct (had_startup (flags (base s) m)) eqn:Hs.
      + cbv zeta. set (s1 := mkM (base s) (r :: released s) (queued s)).
        assert (mode_of x s1 r = None) as M1 by (unfold mode_of, s1; cbn; now rewrite Nat.eqb_refl).
        assert (forall y, mode_of x s1 y = mode_of x s y \/ y = r /\ had s y /\ mode_of x s1 y = None) as M2.
        { intros y. destruct (Nat.eq_dec y r) as [->|Ne]; [right; split; [reflexivity|]; split; [now exists m|exact M1]|]. left. unfold mode_of, s1. cbn [released memb existsb]. rewrite (proj2 (Nat.eqb_neq y r) Ne). reflexivity. }
        destruct (memb r (queued s1)) eqn:Q.
        * split; [reflexivity|]. split; [auto|]. split; [|exact M2]. intros y. split; [now left|]. intros [H|(-> & _)]; [exact H|]. now apply memb_in in Q.
        * destruct (trigger_keeps s1 r) as (K1 & K2). split; [exact K1|]. split; [exact (trigger_nodup s1 r)|]. split.
          -- intros y. rewrite trigger_queue, M1. cbn [is_active]. split; [intros [H|(-> & _)]; [now left|right; split; [reflexivity|now exists m]]|]. intros [H|(-> & _)]; [now left|right; auto].
          -- intros y. unfold mode_of. rewrite K2. apply M2.
      + split; [reflexivity|]. split; [auto|]. split; [|now left]. intros y. split; [now left|]. intros [H|(-> & m' & H1 & H2)]; [exact H|congruence].
    - split; [reflexivity|]. split; [auto|]. split; [|now left]. intros y. split; [now left|]. intros [H|(-> & m' & H1 & _)]; [exact H|congruence]. }
  destruct (IH (release_one x s r)) as (E & G & H & N). cbv zeta. rewrite E, A. split; [reflexivity|]. split; [auto|]. 
  assert (forall y, had (release_one x s r) y -> had s y) as W1. { intros y (m & H1 & H2). rewrite A in H2. destruct (M' y) as [Q|(_ & _ & Q)]; [exists m; rewrite <- Q; auto|congruence]. }
  split.
  - intros y. rewrite H, D. cbn [In]. split.
    + intros [[Q|(-> & Q)]|(Q1 & Q2)]; auto.
    + intros [Q|([->|Q1] & Q2)]; auto. destruct (M' y) as [Q|(-> & _ & _)]; [|left; right; auto]. right. split; [exact Q1|]. destruct Q2 as (m & Q2 & Q3). exists m. now rewrite A, Q.
  - intros y Ny. destruct (M' y) as [Q|(-> & Q1 & Q2)].
    + rewrite <- Q in Ny. destruct (N y Ny) as (N1 & N2 & N3). cbn. auto.
    + split; [now left|]. split; [exact Q1|]. destruct (mode_of x (fold_left (release_one x) l (release_one x s r)) r) as [m|] eqn:Z; [|reflexivity]. destruct (N r) as (_ & _ & N3); congruence.
Qed.

(** The last tag *)
Lemma shutdown_spec s : let s' := trigger_shutdown x s in
  base s' = base s /\ (NoDup (queued s) -> NoDup (queued s')) /\
  (forall y, In y (queued s') <-> In y (queued s) \/ In y (shutdowns x) /\ (mode_of x s y = None \/ had s y)) /\
  (forall y, mode_of x s' y <> mode_of x s y -> In y (shutdowns x) /\ had s y /\ mode_of x s' y = None).
Proof.
  cbv zeta. unfold trigger_shutdown. destruct (plains (shutdowns x) s) as (A & B & C & D). set (s1 := fold_left (plain x) (shutdowns x) s) in *.
  destruct (releases (shutdowns x) s1) as (E & F & G & H). set (s2 := fold_left (release_one x) (shutdowns x) s1) in *.
  assert (forall y, mode_of x s1 y = mode_of x s y) as M by (intros y; unfold mode_of; now rewrite B).
  assert (forall y, had s1 y <-> had s y) as Hd by (intros y; unfold had; now rewrite A, M).
  split; [congruence|]. split; [auto|]. split.
  - intros y. rewrite G, D, Hd. tauto.
  - intros y. rewrite <- (M y). intros Ny. destruct (H y Ny) as (H1 & H2 & H3). rewrite Hd in H2. auto.
Qed.

Lemma startup_reset_spec rs s : let s' := startup_reset p x rs s in
  base s' = handled p (base s) /\ released s' = released s /\ (NoDup (queued s) -> NoDup (queued s')) /\
  forall y, In y (queued s') <-> In y (queued s) \/ In y (startups x) /\ req_startup (base s) = true /\ wants needs_startup s y \/ In y rs /\ req_reset (base s) = true /\ wants needs_reset s y.
Proof.
  cbv zeta. unfold startup_reset. cbv zeta.
  set (s1 := if req_startup (base s) then _ else s).
  assert (base s1 = base s /\ released s1 = released s /\ (NoDup (queued s) -> NoDup (queued s1)) /\ forall y, In y (queued s1) <-> In y (queued s) \/ In y (startups x) /\ req_startup (base s) = true /\ wants needs_startup s y) as (A & B & C & D).
  { unfold s1. destruct (req_startup (base s)); [|intuition discriminate]. destruct (trigger_ones needs_startup (startups x) s) as (A & B & C & D). split; [exact A|]. split; [exact B|]. split; [exact C|]. intros y. rewrite D. intuition. }
  rewrite A. set (s2 := if req_reset (base s) then _ else s1).
  assert (base s2 = base s1 /\ released s2 = released s1 /\ (NoDup (queued s1) -> NoDup (queued s2)) /\ forall y, In y (queued s2) <-> In y (queued s1) \/ In y rs /\ req_reset (base s) = true /\ wants needs_reset s1 y) as (A' & B' & C' & D').
  { unfold s2. destruct (req_reset (base s)); [|intuition discriminate]. destruct (trigger_ones needs_reset rs s1) as (A' & B' & C' & D'). split; [exact A'|]. split; [exact B'|]. split; [exact C'|]. intros y. rewrite D'. intuition. }
  cbn [base released queued]. split; [congruence|]. split; [congruence|]. split; [auto|]. intros y. rewrite D', D.
  assert (wants needs_reset s1 y <-> wants needs_reset s y) as W by (unfold wants, mode_of; now rewrite A, B). rewrite W. tauto.
Qed.

(** ** The flags of the modes *)
Hypothesis OK : program_ok p.

(** How a reactor enters the mode when the first loop is over. *)
Definition goes (s : state) (m : mode) : option change :=
  match next s (owner p m) with Some m' => if Nat.eqb m' m then Some (chg s (owner p m)) else None | None => None end.
Definition is_reset (c : change) : bool := match c with Reset => true | _ => false end.

(** The second loop, after [k] iterations. *)
Record swept (s0 : state) (k : nat) (s : state) : Prop := {
  y_half : half p k s;
  y_hs : forall m, (owner p m < size p)%nat -> had_startup (flags s m) = had_startup (flags s0 m);
  y_ns : forall m, (owner p m < size p)%nat -> needs_startup (flags s m) =
    if (owner p m <? k)%nat then match goes s0 m with Some _ => if had_startup (flags s0 m) then needs_startup (flags s0 m) else true | None => needs_startup (flags s0 m) end else needs_startup (flags s0 m);
  y_nr : forall m, (owner p m < size p)%nat -> needs_reset (flags s m) =
    if (owner p m <? k)%nat then match goes s0 m with Some c => is_reset c | None => needs_reset (flags s0 m) end else needs_reset (flags s0 m);
  y_todo : forall i, (k <= i)%nat -> next s i = next s0 i /\ chg s i = chg s0 i;
  y_req : forall m, (owner p m < k)%nat -> act (flags s m) = true ->
    (needs_startup (flags s m) = true -> req_startup s = true) /\ (needs_reset (flags s m) = true -> req_reset s = true) }.

(** One iteration: the flags other than the activity, and the requests. *)
Lemma switch_needs s i : let s' := fst (switch p s i) in
  (forall m, had_startup (flags s' m) = had_startup (flags s m)) /\
  (forall m, needs_startup (flags s' m) = match next s i with Some m' => if Nat.eqb m m' then if had_startup (flags s m) then needs_startup (flags s m) else true else needs_startup (flags s m) | None => needs_startup (flags s m) end) /\
  (forall m, needs_reset (flags s' m) = match next s i with Some m' => if Nat.eqb m m' then is_reset (chg s i) else needs_reset (flags s m) | None => needs_reset (flags s m) end) /\
  (req_startup s = true -> req_startup s' = true) /\ (req_reset s = true -> req_reset s' = true) /\
  (is_active (set_act s (cur s i) false) (parent p i) = true ->
     (needs_startup (flags s' (target s i)) = true -> req_startup s' = true) /\ (needs_reset (flags s' (target s i)) = true -> req_reset s' = true)).
Proof.
  cbv zeta. unfold switch. cbv zeta. set (s0 := set_act s (cur s i) false). change (next s0 i) with (next s i). change (chg s0 i) with (chg s i).
  assert (forall m, had_startup (flags s0 m) = had_startup (flags s m) /\ needs_startup (flags s0 m) = needs_startup (flags s m) /\ needs_reset (flags s0 m) = needs_reset (flags s m)) as F0.
  { intros m. unfold s0. rewrite set_act_flags. unfold upd. destruct (Nat.eqb_spec m (cur s i)); [subst; cbn; auto|auto]. }
  set (r := match next s i with Some m => _ | None => _ end).
  assert (exists s1 e1, r = (s1, e1) /\ cur s1 i = target s i /\ req_startup s1 = req_startup s /\ req_reset s1 = req_reset s /\ (forall m, act (flags s1 m) = act (flags s0 m)) /\
    (forall m, had_startup (flags s1 m) = had_startup (flags s m)) /\
    (forall m, needs_startup (flags s1 m) = match next s i with Some m' => if Nat.eqb m m' then if had_startup (flags s m) then needs_startup (flags s m) else true else needs_startup (flags s m) | None => needs_startup (flags s m) end) /\
    (forall m, needs_reset (flags s1 m) = match next s i with Some m' => if Nat.eqb m m' then is_reset (chg s i) else needs_reset (flags s m) | None => needs_reset (flags s m) end))
    as (s1 & e1 & R & Q1 & Q2 & Q3 & Q4 & Q5 & Q6 & Q7).
  { unfold r, target. destruct (next s i) as [m|] eqn:Ni; eexists; eexists; (split; [reflexivity|]); cbn [cur next q susp now stop start fresh chg deact flags req_startup req_reset].
    - split; [now rewrite upd_same|]. split; [reflexivity|]. split; [reflexivity|].
      split; [|split; [|split]]; intros m'; unfold upd at 1; destruct (Nat.eqb_spec m' m) as [->|]; try reflexivity; try (apply F0); cbn [had_startup needs_startup needs_reset].
      + destruct (F0 m) as (-> & -> & _). reflexivity.
    - split; [reflexivity|]. split; [reflexivity|]. split; [reflexivity|]. split; [reflexivity|]. split; [|split]; intros m; apply F0. }
  rewrite R. cbn [fst].
  assert (is_active s1 (parent p i) = is_active s0 (parent p i)) as Ia by (destruct (parent p i); cbn [is_active]; [apply Q4|reflexivity]).
  rewrite Ia. destruct (is_active s0 (parent p i)) eqn:Pa.
  - assert (forall m, let f := flags (set_act s1 (cur s1 i) true) m in had_startup f = had_startup (flags s1 m) /\ needs_startup f = needs_startup (flags s1 m) /\ needs_reset f = needs_reset (flags s1 m)) as F1.
    { intros m. cbv zeta. rewrite set_act_flags. unfold upd. destruct (Nat.eqb_spec m (cur s1 i)); [subst; cbn; auto|auto]. }
    cbn [fst flags req_startup req_reset]. change (cur (set_act s1 (cur s1 i) true) i) with (cur s1 i). change (req_startup (set_act s1 (cur s1 i) true)) with (req_startup s1). change (req_reset (set_act s1 (cur s1 i) true)) with (req_reset s1). rewrite Q1 in *.
    split; [intros m; now rewrite (proj1 (F1 m))|]. split; [intros m; now rewrite (proj1 (proj2 (F1 m)))|]. split; [intros m; now rewrite (proj2 (proj2 (F1 m)))|].
    rewrite Q2, Q3. split; [intros ->; reflexivity|]. split; [intros ->; reflexivity|]. intros _. split; intros ->; now rewrite orb_true_r.
  - split; [exact Q5|]. split; [exact Q6|]. split; [exact Q7|]. rewrite Q2, Q3. split; [auto|]. split; [auto|]. discriminate.
Qed.

Lemma switch_swept s0 k s : (k < size p)%nat -> swept s0 k s -> swept s0 (S k) (fst (switch p s k)).
Proof.
  intros Hk Y. pose proof (switch_half p OK k s Hk (y_half _ _ _ Y)) as Hf. destruct (switch_needs s k) as (N1 & N2 & N3 & N4 & N5 & N6). pose proof (switch_spec p s k) as W.
  destruct (y_todo _ _ _ Y k ltac:(lia)) as (Tn & Tc). set (s' := fst (switch p s k)) in *. clearbody s'.
  assert (forall m m', (owner p m < size p)%nat -> next s k = Some m' -> Nat.eqb m m' = true -> owner p m = k) as Ow.
  { intros m m' _ E B. apply Nat.eqb_eq in B. subst m'. now apply (o_next _ _ (h_own _ _ _ (y_half _ _ _ Y))). }
  split.
  - exact Hf.
  - intros m Hm. rewrite N1. now apply (y_hs _ _ _ Y).
  - intros m Hm. rewrite N2, (y_hs _ _ _ Y m Hm), (y_ns _ _ _ Y m Hm). destruct (Nat.eq_dec (owner p m) k) as [E|Ne].
    + rewrite E. replace (k <? k)%nat with false by (symmetry; apply Nat.ltb_ge; lia). replace (k <? S k)%nat with true by (symmetry; apply Nat.ltb_lt; lia).
      unfold goes. rewrite E, <- Tn. destruct (next s k) as [m'|]; [|reflexivity]. rewrite Nat.eqb_sym. now destruct (Nat.eqb m' m).
    + assert ((owner p m <? S k)%nat = (owner p m <? k)%nat) as -> by (destruct (Nat.ltb_spec (owner p m) (S k)), (Nat.ltb_spec (owner p m) k); auto; lia).
      destruct (next s k) as [m'|] eqn:En; [|reflexivity]. destruct (Nat.eqb m m') eqn:B; [|reflexivity]. now rewrite (Ow m m' Hm eq_refl B) in Ne.
  - intros m Hm. rewrite N3, (y_nr _ _ _ Y m Hm). destruct (Nat.eq_dec (owner p m) k) as [E|Ne].
    + rewrite E. replace (k <? k)%nat with false by (symmetry; apply Nat.ltb_ge; lia). replace (k <? S k)%nat with true by (symmetry; apply Nat.ltb_lt; lia).
      unfold goes. rewrite E, <- Tn, <- Tc. destruct (next s k) as [m'|]; [|reflexivity]. rewrite Nat.eqb_sym. now destruct (Nat.eqb m' m).
    + assert ((owner p m <? S k)%nat = (owner p m <? k)%nat) as -> by (destruct (Nat.ltb_spec (owner p m) (S k)), (Nat.ltb_spec (owner p m) k); auto; lia).
      destruct (next s k) as [m'|] eqn:En; [|reflexivity]. destruct (Nat.eqb m m') eqn:B; [|reflexivity]. now rewrite (Ow m m' Hm eq_refl B) in Ne.
  - intros i Hi. rewrite (w_next _ _ _ _ W), (w_chg _ _ _ _ W) by lia. destruct (Nat.eqb_spec i k); [lia|]. apply (y_todo _ _ _ Y). lia.
  - intros m Hm A. destruct (Nat.eq_dec (owner p m) k) as [E|Ne].
    + pose proof A as A1. apply (h_done _ _ _ Hf m) in A1; [|lia|lia]. destruct A1 as (A1 & _). rewrite (w_cur _ _ _ _ W), E, Nat.eqb_refl in A1. subst m.
      rewrite (w_act _ _ _ _ W), Nat.eqb_refl in A. cbn [andb] in A. destruct (is_active _ _); [now apply N6|].
      destruct (Nat.eqb_spec (target s k) (cur s k)); [discriminate|]. exfalso. apply n. symmetry. rewrite <- E at 1. apply (h_todo _ _ _ (y_half _ _ _ Y)); [lia|exact A].
    + assert (needs_startup (flags s' m) = needs_startup (flags s m) /\ needs_reset (flags s' m) = needs_reset (flags s m)) as (F1 & F2).
      { rewrite N2, N3. destruct (next s k) as [m'|] eqn:En; [|auto]. destruct (Nat.eqb m m') eqn:B; [|auto]. now rewrite (Ow m m' ltac:(lia) eq_refl B) in Ne. }
      assert (act (flags s m) = true) as A1.
      { rewrite (w_act _ _ _ _ W) in A. assert (Nat.eqb m (target s k) = false) as B1. { apply Nat.eqb_neq. intros ->. apply Ne. unfold target. destruct (next s k) eqn:En; [now apply (o_next _ _ (h_own _ _ _ (y_half _ _ _ Y)))|now apply (o_cur _ _ (h_own _ _ _ (y_half _ _ _ Y)))]. }
        rewrite B1 in A. cbn [andb] in A. destruct (Nat.eqb m (cur s k)); [discriminate|exact A]. }
      rewrite F1, F2. destruct (y_req _ _ _ Y m ltac:(lia) A1) as (R1 & R2). auto.
Qed.

(** All mode changes at the end of a tag. *)
Definition quiet (s : state) : Prop := forall m, (owner p m < size p)%nat -> act (flags s m) = true -> needs_startup (flags s m) = false /\ needs_reset (flags s m) = false.
Definition change_of (s : state) (m : mode) : option change := goes (fst (each (enter p) (seq 0 (size p)) s)) m.

Lemma change_entered s : good p s -> forall m c, (owner p m < size p)%nat -> change_of s m = Some c <-> exists at_, In (Entered m c at_) (snd (process p s)).
Proof.
  intros G m c Hm. destruct (process_pair p OK s G) as (_ & _ & P3). unfold change_of, goes. split.
  - intros H. exists (now s). apply P3. split; [reflexivity|]. exists (owner p m). split; [exact Hm|]. unfold pair. destruct (next _ (owner p m)) as [m'|]; [|discriminate]. destruct (Nat.eqb_spec m' m) as [E1|]; [|discriminate]. injection H as E2. now rewrite E1, E2.
  - intros (at_ & H). apply P3 in H. destruct H as (_ & i & Hi & H). unfold pair in H.
    assert (own p (fst (each (enter p) (seq 0 (size p)) s))) as O1. { apply (each_pres (own p)); [|apply G]. intros s1 j Hj O. apply in_seq in Hj. apply (enter_own p OK); [lia|exact O]. }
    set (s1 := fst (each (enter p) (seq 0 (size p)) s)) in *. destruct (next s1 i) as [m'|] eqn:N; [|discriminate]. injection H as E1 E2. subst m'. rewrite (o_next _ _ O1 i m Hi N). rewrite N, Nat.eqb_refl. now rewrite E2.
Qed.

Lemma process_flags s : good p s -> quiet s -> let s' := fst (process p s) in
  forall m, (owner p m < size p)%nat ->
    had_startup (flags s' m) = had_startup (flags s m) /\
    needs_startup (flags s' m) = match change_of s m with Some _ => if had_startup (flags s m) then needs_startup (flags s m) else true | None => needs_startup (flags s m) end /\
    needs_reset (flags s' m) = match change_of s m with Some c => is_reset c | None => needs_reset (flags s m) end /\
    (act (flags s' m) = true -> (needs_startup (flags s' m) = true -> req_startup s' = true) /\ (needs_reset (flags s' m) = true -> req_reset s' = true)).
Proof.
  intros G Qu. cbv zeta. unfold process, change_of. change (reactors p) with (seq 0 (size p)).
  assert (own p (fst (each (enter p) (seq 0 (size p)) s)) /\ cur (fst (each (enter p) (seq 0 (size p)) s)) = cur s /\ flags (fst (each (enter p) (seq 0 (size p)) s)) = flags s) as (O1 & C1 & F1).
  { apply (each_pres (fun s1 => own p s1 /\ cur s1 = cur s /\ flags s1 = flags s)); [|split; [apply G|auto]]. intros s1 i Hi (A & B & C). apply in_seq in Hi. destruct (enter_flags p s1 i) as (E1 & E2). split; [apply (enter_own p OK); [lia|exact A]|]. split; congruence. }
  destruct (each (enter p) (seq 0 (size p)) s) as [s1 e1]. cbn [fst] in *.
  destruct (existsb (fun i => match next s1 i with Some _ => true | None => false end) (seq 0 (size p))) eqn:X.
  - assert (swept s1 0 s1) as Y0.
    { split; auto.
      - split; [exact O1|lia|]. intros m Hm A. rewrite F1 in A. rewrite C1. apply (proj2 G) in A; [tauto|lia].
      - intros m Hm. lia. }
    pose proof (each_seq (fun k s2 _ => swept s1 k s2) (switch p) (size p) (fun k s2 _ Hk => switch_swept s1 k s2 Hk) s1 [] Y0) as Y. cbn beta in Y.
    destruct (each (switch p) (seq 0 (size p)) s1) as [s2 e2]. cbn [fst] in Y. cbn [retract fst]. set (s3 := mkState _ _ _ _ _ (filter _ _) _ _ _ _ _ _ _).
    assert (flags (dummy s3) = flags s2 /\ req_startup (dummy s3) = req_startup s2 /\ req_reset (dummy s3) = req_reset s2) as (D1 & D2 & D3) by (unfold dummy; destruct (_ || _); auto).
    rewrite D1, D2, D3. intros m Hm. pose proof (y_hs _ _ _ Y m Hm) as Y1. pose proof (y_ns _ _ _ Y m Hm) as Y2. pose proof (y_nr _ _ _ Y m Hm) as Y3. rewrite F1 in Y1, Y2, Y3. replace (owner p m <? size p)%nat with true in * by (symmetry; now apply Nat.ltb_lt).
    split; [exact Y1|]. split; [exact Y2|]. split; [exact Y3|]. intros A. now apply (y_req _ _ _ Y m).
  - cbn [fst]. intros m Hm. assert (next s1 (owner p m) = None) as N.
    { destruct (next s1 (owner p m)) as [m'|] eqn:N; [|reflexivity]. assert (existsb (fun i => match next s1 i with Some _ => true | None => false end) (seq 0 (size p)) = true); [|congruence].
      apply existsb_exists. exists (owner p m). split; [apply in_seq; lia|now rewrite N]. }
    unfold goes. rewrite N, F1. split; [reflexivity|]. split; [reflexivity|]. split; [reflexivity|]. intros A. destruct (Qu m Hm A) as (-> & ->). split; discriminate.
Qed.

(** [handled] *)
Lemma handled_flags s : good p s -> forall m, (owner p m < size p)%nat ->
  flags (handled p s) m = if act (flags s m) then mkFlags true false (had_startup (flags s m) || needs_startup (flags s m)) false else flags s m.
Proof.
  intros G. unfold handled. cbn [flags].
  assert (forall l s1 (D : nat -> bool), cur s1 = cur s -> (forall m, flags s1 m = if act (flags s m) && D (owner p m) then mkFlags true false (had_startup (flags s m) || needs_startup (flags s m)) false else flags s m) -> (forall i, In i l -> (i < size p)%nat) ->
    (forall m, (owner p m < size p)%nat -> flags (fold_left started l s1) m = if act (flags s m) && (D (owner p m) || memb (owner p m) l) then mkFlags true false (had_startup (flags s m) || needs_startup (flags s m)) false else flags s m)) as K.
  { induction l as [|i l IH]; intros s1 D C F Hl m Hm; cbn [fold_left memb existsb]; [rewrite orb_false_r; apply F|].
    rewrite (IH (started s1 i) (fun j => D j || Nat.eqb j i)).
    - now rewrite <- orb_assoc.
    - unfold started. now destruct (act _).
    - intros m'. unfold started. rewrite C. destruct (act (flags s1 (cur s i))) eqn:A.
      + cbn [flags set_flags]. unfold upd. destruct (Nat.eqb_spec m' (cur s i)) as [->|Ne].
        * pose proof (F (cur s i)) as Fi. assert (act (flags s (cur s i)) = true) as A'. { rewrite Fi in A. destruct (act (flags s (cur s i))) eqn:A2; [reflexivity|]. cbn [andb] in A. congruence. }
          rewrite A' in *. rewrite (o_cur _ _ (proj1 G)) in * by (apply Hl; now left). rewrite Nat.eqb_refl, orb_true_r. cbn [andb] in *. rewrite Fi. destruct (D i); [cbn; now rewrite orb_false_r|]. rewrite ?A'. reflexivity.
        * rewrite F. destruct (act (flags s m')) eqn:A'; cbn [andb]; [|reflexivity]. destruct (Nat.eqb_spec (owner p m') i) as [E|]; [|now rewrite orb_false_r]. exfalso. apply Ne. apply (proj2 G) in A'; [|rewrite E; apply Hl; now left]. destruct A' as (A' & _). now rewrite E in A'.
      + rewrite F. destruct (act (flags s m')) eqn:A'; cbn [andb]; [|reflexivity]. destruct (Nat.eqb_spec (owner p m') i) as [E|]; [|now rewrite orb_false_r].
        apply (proj2 G) in A' as A2; [|rewrite E; apply Hl; now left]. destruct A2 as (A2 & _). rewrite E in A2. rewrite A2 in A. rewrite F, A' in A. rewrite E in *. destruct (D i); [discriminate|]. cbn in A. congruence.
    - intros j Hj. apply Hl. now right.
    - exact Hm. }
  intros m Hm. rewrite (K (reactors p) s (fun _ => false) eq_refl); [|intros m'; now rewrite andb_false_r|intros i Hi; now apply reactors_in|exact Hm].
  cbn [orb]. replace (memb (owner p m) (reactors p)) with true by (symmetry; apply memb_in; now apply reactors_in). now rewrite andb_true_r.
Qed.

(** ** Histories *)
Lemma begun_cons r h m : h <> [] -> begun p (r :: h) m <-> (exists c, enters r m c) \/ begun p h m.
Proof.
  intros Hn. unfold begun. split.
  - intros [(r' & c & [<-|H] & E)|(h' & r' & E & A)]; [left; eauto|right; left; eauto|]. destruct h' as [|a h']; [injection E as -> E; now subst h|]. injection E as -> ->. right. right. eauto.
  - intros [(c & E)|[(r' & c & H & E)|(h' & r' & E & A)]]; [left; exists r, c; cbn; auto|left; exists r', c; cbn; auto|]. right. exists (r :: h'), r'. now rewrite E.
Qed.
Lemma seen_cons r h m : seen p (r :: h) m <-> seen p h m \/ active_in p r m /\ begun p (r :: h) m.
Proof.
  unfold seen. split.
  - intros (h1 & r1 & h2 & E & A). destruct h1 as [|a h1]; injection E as <- E; [subst h2; now right|]. left. eauto.
  - intros [(h1 & r1 & h2 & E & A)|A]; [exists (r :: h1), r1, h2; now rewrite E|exists [], r, h; auto].
Qed.

Definition pre_reset (r : round) (h : list round) (m : mode) : Prop :=
  exists h1 r1 h2, r :: h = h1 ++ r1 :: h2 /\ enters r1 m Reset /\
    (forall r' c, In r' h1 -> ~ enters r' m c) /\ (forall r', In r' (tl (h1 ++ [r1])) -> ~ active_in p r' m).
Definition pending (h : list round) (m : mode) : Prop :=
  exists h1 r1 h2, h = h1 ++ r1 :: h2 /\ enters r1 m Reset /\
    (forall r' c, In r' h1 -> ~ enters r' m c) /\ (forall r', In r' (h1 ++ [r1]) -> ~ active_in p r' m).
Lemma pre_cons r h m : pre_reset r h m <-> enters r m Reset \/ (forall c, ~ enters r m c) /\ pending h m.
Proof.
  unfold pre_reset, pending. split.
  - intros (h1 & r1 & h2 & E & A & B & C). destruct h1 as [|a h1]; injection E as <- E; [now left|]. right. split; [intros c; apply B; now left|]. exists h1, r1, h2. split; [exact E|]. split; [exact A|]. split; [intros r' c H; apply B; now right|exact C].
  - intros [A|(A & h1 & r1 & h2 & -> & B & C & D)]; [exists [], r, h; repeat split; auto; intros r' []|]. exists (r :: h1), r1, h2. split; [reflexivity|]. split; [exact B|]. split; [intros r' c [<-|H]; auto|exact D].
Qed.
Lemma pending_cons r h m : pending (r :: h) m <-> pre_reset r h m /\ ~ active_in p r m.
Proof.
  unfold pre_reset, pending. split.
  - intros (h1 & r1 & h2 & E & A & B & C). split.
    + exists h1, r1, h2. split; [exact E|]. split; [exact A|]. split; [exact B|]. intros r' H. apply C. destruct (h1 ++ [r1]); [easy|now right].
    + apply C. destruct h1 as [|a h1]; injection E as <- E; now left.
  - intros ((h1 & r1 & h2 & E & A & B & C) & N). exists h1, r1, h2. split; [exact E|]. split; [exact A|]. split; [exact B|]. intros r' H. destruct h1 as [|a h1]; injection E as <- E; cbn in *; destruct H as [<-|H]; auto. 
Qed.

(** ** The invariant *)
Record minv (s : mstate) (h : list round) : Prop := {
  i_good : good p (base s);
  i_rel : released s = [] \/ at_stop s = true;
  i_cur : exists r h', h = r :: h' /\ r_cur r = cur (base s) /\ r_queue r = queued s;
  i_had : forall m, (owner p m < size p)%nat -> had_startup (flags (base s) m) = true <-> seen p h m;
  i_ns : forall m, (owner p m < size p)%nat -> needs_startup (flags (base s) m) = true <-> begun p h m /\ ~ seen p h m;
  i_nr : forall m, (owner p m < size p)%nat -> needs_reset (flags (base s) m) = true <-> pending h m;
  i_at : forall i, (i < size p)%nat -> cur (base s) i = initial p i \/ exists r c, In r h /\ enters r (cur (base s) i) c;
  i_nodup : NoDup (queued s);
  i_enters : forall r m c, In r h -> enters r m c -> (owner p m < size p)%nat /\ r_cur r (owner p m) = m }.

Lemma minv_active s h m : minv s h -> (owner p m < size p)%nat -> exists r h', h = r :: h' /\ (act (flags (base s) m) = true <-> active_in p r m).
Proof. intros V Hm. destruct (i_cur _ _ V) as (r & h' & -> & E & _). exists r, h'. split; [reflexivity|]. unfold active_in. rewrite E. apply (local_active p OK); [apply (i_good _ _ V)|exact Hm]. Qed.

Lemma minv_quiet s h : minv s h -> quiet (base s).
Proof.
  intros V m Hm A. destruct (minv_active s h m V Hm) as (r & h' & -> & E). apply E in A. split.
  - destruct (needs_startup (flags (base s) m)) eqn:N; [|reflexivity]. apply (i_ns _ _ V m Hm) in N. destruct N as (N1 & N2). destruct N2. apply seen_cons. auto.
  - destruct (needs_reset (flags (base s) m)) eqn:N; [|reflexivity]. apply (i_nr _ _ V m Hm) in N. apply pending_cons in N. tauto.
Qed.

(** Steps within a tag *)
Lemma minv_within s h b' : minv s h -> good p b' -> cur b' = cur (base s) -> flags b' = flags (base s) -> (at_stop s = true -> at_stop (mkM b' (released s) (queued s)) = true) -> minv (mkM b' (released s) (queued s)) h.
Proof.
  intros V G C F A. destruct V as [V1 V2 V3 V4 V5 V6 V7 V8 V9]. split; cbn [base released queued]; rewrite ?C, ?F; auto. destruct V2; auto.
Qed.

Lemma entries_in l m c : In (m, c) (entries l) <-> exists at_, In (Entered m c at_) l.
Proof.
  unfold entries. rewrite in_flat_map. split.
  - intros (e & He & H). destruct e; try easy. destruct H as [H|[]]. injection H as -> ->. eauto.
  - intros (at_ & H). exists (Entered m c at_). split; [exact H|now left].
Qed.

Lemma handled_keeps s : now (handled p s) = now s /\ stop (handled p s) = stop s.
Proof.
  unfold handled. cbn [now stop]. generalize (reactors p). intros l. revert s. induction l as [|i l IH]; intros s; cbn [fold_left]; [auto|]. destruct (IH (started s i)) as (A & B). rewrite A, B. unfold started. destruct (act _); auto.
Qed.
Lemma process_keeps s : stop (fst (process p s)) = stop s /\ now (fst (process p s)) = now s.
Proof.
  unfold process.
  assert (stop (fst (each (enter p) (reactors p) s)) = stop s /\ now (fst (each (enter p) (reactors p) s)) = now s) as (A & A').
  { apply (each_pres (fun s1 => stop s1 = stop s /\ now s1 = now s)); [|auto]. intros s1 i _ (E1 & E2). destruct (enter_keeps p s1 i) as (_ & _ & _ & K1 & K2 & _). split; congruence. }
  destruct (each (enter p) (reactors p) s) as [s1 e1]. cbn [fst] in *. destruct (existsb _ _); [|auto].
  assert (stop (fst (each (switch p) (reactors p) s1)) = stop s1 /\ now (fst (each (switch p) (reactors p) s1)) = now s1) as (B & B').
  { apply (each_pres (fun s2 => stop s2 = stop s1 /\ now s2 = now s1)); [|auto]. intros s2 i _ (E1 & E2). pose proof (switch_spec p s2 i) as W. rewrite (w_stop _ _ _ _ W), (w_now _ _ _ _ W). auto. }
  destruct (each (switch p) (reactors p) s1) as [s2 e2]. cbn [fst retract] in *. unfold dummy. destruct (_ || _); cbn; split; congruence.
Qed.

(** A new tag *)
Lemma minv_round s h t s' l : reactions_ok p x -> minv s h -> mstep p x s (Do (Advance t)) = Some (s', l) ->
  minv s' (round_of s' l :: h) /\ forall y, In y (queued s') <-> due p x (round_of s' l) h y.
Proof.
  intros RO V H. cbn [mstep] in H. destruct (at_stop s || (0 <? tag_compare t (stop (base s)))) eqn:St; [discriminate|]. apply orb_false_iff in St. destruct St as (St & _).
  assert (released s = []) as Rel by (destruct (i_rel _ _ V); [assumption|congruence]).
  pose proof (process_good p OK (base s) (i_good _ _ V)) as G1. pose proof (process_flags (base s) (i_good _ _ V) (minv_quiet s h V)) as PF.
  pose proof (change_entered (base s) (i_good _ _ V)) as CE. destruct (process_pair p OK (base s) (i_good _ _ V)) as (_ & PC & PE).
  cbv zeta in PF, PC, PE. set (b := fst (process p (base s))) in *.
  assert (forall j, (j < size p)%nat -> cur b j = cur (base s) j \/ exists c, In (cur b j, c) (entries (snd (process p (base s))))) as Cb.
  { intros j Hj. destruct (PC j Hj) as (E1 & _). destruct (pair _ j) as [[m c]|] eqn:Pr in E1; [right|now left]. exists c. apply entries_in. exists (now (base s)). apply PE. split; [reflexivity|]. exists j. split; [exact Hj|]. now rewrite E1. }
  assert (forall m c, In (m, c) (entries (snd (process p (base s)))) -> (owner p m < size p)%nat /\ cur b (owner p m) = m) as Cc.
  { intros m c Hc. apply entries_in in Hc. destruct Hc as (at_ & Hc). apply PE in Hc. destruct Hc as (_ & i & Hi & Hc). destruct (PC i Hi) as (E1 & _). rewrite Hc in E1. assert (owner p m = i) as -> by (rewrite <- E1; apply (o_cur _ _ (proj1 G1)); exact Hi). auto. }
  clear PC PE. unfold b in *. clear b. destruct (process p (base s)) as [b e]. cbn [fst snd] in *. destruct ((tag_compare (now b) t <? 0) && forallb (fun e => tag_compare t (etag e) <=? 0) (q b)); [|discriminate].
  set (b1 := mkState (cur b) (next b) (chg b) (flags b) (deact b) (filter (fun e => negb (tag_compare (etag e) t =? 0)) (q b)) (susp b) (req_startup b) (req_reset b) t (stop b) (start b) (fresh b)) in *. rewrite Rel in H.
  assert (good p b1) as Gb1 by (eapply good_ext; [| | |exact G1]; reflexivity).
  assert (exists s3, True /\ (base s3 = b1 /\ NoDup (queued s3) /\ s' = startup_reset p x (resets x) s3 /\ l = e /\ at_stop s3 = at_stop (mkM b1 [] []) /\
    (forall y, In y (queued s3) <-> In y (shutdowns x) /\ at_stop (mkM b1 [] []) = true /\ match rmode x y with None => True | Some m => had_startup (flags b m) = true end) /\
    (forall y, mode_of x s3 y = rmode x y \/ In y (queued s3) /\ mode_of x s3 y = None /\ exists m, rmode x y = Some m /\ had_startup (flags b m) = true) /\
    (released s3 = [] \/ at_stop (mkM b1 [] []) = true))) as (s3 & _ & B3 & N3 & -> & -> & A3 & Q3 & M3 & R3).
  { destruct (at_stop (mkM b1 [] [])) eqn:Ap.
    - destruct (shutdown_spec (mkM b1 [] [])) as (S1 & S2 & S3 & S4). set (s3 := trigger_shutdown x (mkM b1 [] [])) in *. exists s3. split; [exact I|]. injection H as <- <-. split; [exact S1|]. split; [apply S2; constructor|]. split; [reflexivity|]. split; [reflexivity|].
      split; [unfold at_stop in *; rewrite S1; exact Ap|].
      assert (forall y, In y (queued s3) <-> In y (shutdowns x) /\ match rmode x y with None => True | Some m => had_startup (flags b m) = true end) as K.
      { intros y. rewrite S3. unfold had, mode_of. cbn [queued released memb existsb base In]. destruct (rmode x y) as [m|].
        - split; [intros [[]|(K1 & [K2|(m' & K2 & K3)])]; [discriminate|injection K2 as <-; auto]|]. intros (K1 & K2). right. split; [exact K1|]. right. now exists m.
        - split; [intros [[]|(K1 & _)]; auto|]. intros (K1 & _). right. auto. }
      split; [intros y; rewrite K; tauto|]. split; [|now right].
      intros y. destruct (mode_of x s3 y) as [m|] eqn:My.
      + left. destruct (rmode x y) as [m'|] eqn:Ry.
        * destruct (Nat.eq_dec m m') as [->|Ne]; [reflexivity|]. destruct (S4 y) as (_ & _ & Z); [|congruence]. rewrite My. unfold mode_of. cbn [released memb existsb]. rewrite Ry. congruence.
        * destruct (S4 y) as (_ & _ & Z); [|congruence]. rewrite My. unfold mode_of. cbn [released memb existsb]. rewrite Ry. discriminate.
      + destruct (rmode x y) as [m'|] eqn:Ry; [right|now left]. destruct (S4 y) as (Z1 & (m & Z2 & Z3) & _); [rewrite My; unfold mode_of; cbn [released memb existsb]; rewrite Ry; discriminate|].
        unfold mode_of in Z2. cbn [released memb existsb] in Z2. rewrite Ry in Z2. injection Z2 as <-. rewrite K, Ry. cbn [base] in Z3. change (flags b1) with (flags b) in Z3. split; [auto|]. split; [reflexivity|]. now exists m'.
    - exists (mkM b1 [] []). split; [exact I|]. injection H as <- <-. cbn [base queued released]. split; [reflexivity|]. split; [constructor|]. split; [reflexivity|]. split; [reflexivity|]. split; [exact Ap|].
      split; [intros y; cbn [In]; intuition discriminate|]. split; [now left|]. now left. }
  clear H. destruct (startup_reset_spec (resets x) s3) as (T1 & T2 & T3 & T4). set (s' := startup_reset p x (resets x) s3) in *. rewrite B3 in T1.
  assert (good p (base s')) as G'. { rewrite T1. destruct (handled_act p b1) as (H1 & H2 & H3). eapply good_ext; [exact H1|exact H2|exact H3|exact Gb1]. }
  pose proof (handled_flags b1 Gb1) as HF. rewrite <- T1 in HF. change (flags b1) with (flags b) in HF.
  set (r := round_of s' e). set (o := change_of (base s)) in *.
  assert (forall m, (owner p m < size p)%nat -> act (flags (base s') m) = act (flags b m)) as Fa. { intros m Hm. rewrite HF by exact Hm. now destruct (act (flags b m)) eqn:A. }
  assert (forall m, (owner p m < size p)%nat -> act (flags b m) = true <-> active_in p r m) as Ac.
  { intros m Hm. rewrite <- Fa by exact Hm. unfold active_in, r, round_of. cbn [r_cur]. apply (local_active p OK); [apply G'|exact Hm]. }
  assert (forall m c, (owner p m < size p)%nat -> enters r m c <-> o m = Some c) as En.
  { intros m c Hm. unfold enters, r, round_of. cbn [r_entries]. rewrite entries_in. symmetry. now apply CE. }
  assert (h <> []) as Hne by (destruct (i_cur _ _ V) as (? & ? & -> & _); discriminate).
  assert (r_last r = at_stop (mkM b1 [] [])) as Rl. { unfold r, round_of. cbn [r_last]. unfold at_stop. rewrite T1. destruct (handled_keeps b1) as (-> & ->). reflexivity. }
  assert (forall m, (owner p m < size p)%nat ->
    (seen p h m <-> had_startup (flags b m) = true) /\
    (begun p (r :: h) m /\ ~ seen p h m <-> needs_startup (flags b m) = true) /\
    (pre_reset r h m <-> needs_reset (flags b m) = true)) as K.
  { intros m Hm. destruct (PF m Hm) as (P1 & P2 & P3 & _). pose proof (i_had _ _ V m Hm) as I1. pose proof (i_ns _ _ V m Hm) as I2. pose proof (i_nr _ _ V m Hm) as I3. split; [now rewrite P1, I1|]. split.
    - rewrite begun_cons by exact Hne. rewrite P2, <- I1. destruct (o m) as [c|] eqn:Om.
      + destruct (had_startup (flags (base s) m)).
        * split; [intros (_ & N); now destruct N|]. intros N. apply I2 in N. exfalso. apply (proj2 N). now apply I1.
        * split; [reflexivity|]. intros _. split; [left; exists c; now apply En|discriminate].
      + rewrite I2, <- I1. split; [|tauto]. intros ([(c & Ec)|B] & N); [apply En in Ec; [congruence|exact Hm]|auto].
    - rewrite pre_cons, P3, <- I3. destruct (o m) as [c|] eqn:Om.
      + split.
        * intros [Ec|(Ec & _)]; [apply En in Ec; [|exact Hm]; rewrite Om in Ec; injection Ec as ->; reflexivity|]. destruct (Ec c). now apply En.
        * intros Ic. left. apply En; [exact Hm|]. destruct c; try discriminate. exact Om.
      + split; [intros [Ec|(_ & Ec)]; [apply En in Ec; [congruence|exact Hm]|exact Ec]|]. intros Nr. right. split; [|exact Nr]. intros c Ec. apply En in Ec; [congruence|exact Hm]. }
  split.
  - split.
    + exact G'.
    + destruct R3 as [R3|R3]; [left; now rewrite T2|right]. rewrite <- R3. unfold at_stop. rewrite T1. now destruct (handled_keeps b1) as (-> & ->).
    + exists r, h. repeat split.
    + intros m Hm. destruct (K m Hm) as (K1 & K2 & K3). rewrite HF by exact Hm. rewrite seen_cons, K1. destruct (act (flags b m)) eqn:Am.
      * cbn [had_startup]. rewrite orb_true_iff, <- K2. apply (Ac m Hm) in Am. destruct (had_startup (flags b m)); [intuition|]. split; [intros [|(B & _)]; [discriminate|right; auto]|]. intros [|(_ & B)]; [discriminate|right]. split; [exact B|]. rewrite K1. discriminate.
      * split; [now left|]. intros [N|(N & _)]; [exact N|]. apply (Ac m Hm) in N. congruence.
    + intros m Hm. destruct (K m Hm) as (K1 & K2 & K3). rewrite HF by exact Hm. rewrite seen_cons. destruct (act (flags b m)) eqn:Am.
      * cbn [needs_startup]. split; [discriminate|]. apply (Ac m Hm) in Am. intros (B & N). destruct N. right. auto.
      * rewrite <- K2. assert (~ active_in p r m) as N by (intros N; apply (Ac m Hm) in N; congruence). tauto.
    + intros m Hm. destruct (K m Hm) as (K1 & K2 & K3). rewrite HF by exact Hm. fold r. rewrite pending_cons, K3. destruct (act (flags b m)) eqn:Am.
      * cbn [needs_reset]. split; [discriminate|]. apply (Ac m Hm) in Am. intros (_ & N). contradiction.
      * assert (~ active_in p r m) as N by (intros N; apply (Ac m Hm) in N; congruence). tauto.
    + intros i Hi. rewrite T1. destruct (handled_act p b1) as (H1 & _). rewrite H1. change (cur b1) with (cur b). destruct (Cb i Hi) as [Ci|(c & Ci)].
      * rewrite Ci. destruct (i_at _ _ V i Hi) as [A|(r' & c & A1 & A2)]; [now left|right]. exists r', c. cbn. auto.
      * right. exists r, c. split; [now left|exact Ci].
    + auto.
    + intros r' m c [<-|Hr]; [|now apply (i_enters _ _ V)]. intros He. destruct (Cc m c He) as (C1 & C2). split; [exact C1|]. cbn [r round_of r_cur]. rewrite T1. destruct (handled_act p b1) as (H1 & _). rewrite H1. exact C2.
  - intros y. rewrite T4, Q3, B3. change (req_startup b1) with (req_startup b). change (req_reset b1) with (req_reset b).
    unfold due. rewrite Rl. unfold wants. rewrite B3. change (flags b1) with (flags b). specialize (M3 y). destruct (rmode x y) as [m|] eqn:Ry.
    + pose proof (RO y m Ry) as Hm. destruct (K m Hm) as (K1 & K2 & K3). destruct (PF m Hm) as (_ & _ & _ & P4). unfold startup_due, reset_due, shutdown_due. fold (pre_reset r h m). rewrite K2, K1, K3, Rl, <- (Ac m Hm).
      assert (h = [] /\ act (flags b m) = true <-> False) as -> by tauto. split.
      * intros [(D1 & D2 & D3)|[(D1 & D2 & m' & D3 & D4 & D5)|(D1 & D2 & m' & D3 & D4 & D5)]].
        -- right. right. auto.
        -- destruct M3 as [M3|(_ & M3 & _)]; [|congruence]. rewrite M3 in D3. injection D3 as <-. left. auto.
        -- destruct M3 as [M3|(_ & M3 & _)]; [|congruence]. rewrite M3 in D3. injection D3 as <-. right. left. auto.
      * intros [(D1 & D2 & D3)|[(D1 & D2 & D3)|(D1 & D2 & [D3|[]])]].
        -- right. left. split; [exact D1|]. split; [now apply P4|]. exists m. destruct M3 as [M3|(_ & _ & m' & M4 & M5)]; [auto|]. injection M4 as <-. exfalso. apply K2 in D3. apply (proj2 D3). now apply K1.
        -- destruct M3 as [M3|(M3 & _ & _)]; [|left; apply Q3 in M3; rewrite Ry in M3; exact M3]. right. right. split; [exact D1|]. split; [now apply P4|]. now exists m.
        -- left. auto.
    + destruct M3 as [M3|(_ & _ & m' & M4 & _)]; [|discriminate]. rewrite M3. split.
      * intros [(D1 & D2 & _)|[(_ & _ & m' & D3 & _)|(_ & _ & m' & D3 & _)]]; [right; right; auto|discriminate|discriminate].
      * intros [(_ & D2)|[(_ & [])|(D1 & D2)]]; [contradiction|]. left. auto.
Qed.

(** The start *)
Lemma enable_flags l : forall s, (forall m, flags s m = mkFlags (act (flags s m)) (act (flags s m)) false false) -> req_startup s = true -> req_reset s = false ->
  let s' := fold_left (enable p) l s in (forall m, flags s' m = mkFlags (act (flags s' m)) (act (flags s' m)) false false) /\ req_startup s' = true /\ req_reset s' = false /\ stop s' = stop s /\ now s' = now s /\ cur s' = cur s.
Proof.
  induction l as [|i l IH]; intros s F R1 R2; cbn [fold_left]; [auto 10|].
  assert ((forall m, flags (enable p s i) m = mkFlags (act (flags (enable p s i) m)) (act (flags (enable p s i) m)) false false) /\ req_startup (enable p s i) = true /\ req_reset (enable p s i) = false /\ stop (enable p s i) = stop s /\ now (enable p s i) = now s /\ cur (enable p s i) = cur s) as (A & B & C & D & E & G).
  { unfold enable. destruct (is_active s (parent p i)); [|auto 10]. cbn [set_flags flags req_startup req_reset stop now cur]. split; [|auto 10]. intros m. unfold upd. destruct (Nat.eqb m (cur s i)); [|apply F]. cbn [act]. rewrite (F (cur s i)). reflexivity. }
  destruct (IH (enable p s i) A B C) as (A1 & B1 & C1 & D1 & E1 & G1). cbv zeta. rewrite D1, E1, G1. auto 10.
Qed.

Lemma minit_base t0 st : base (minit p x t0 st) = fst (init p t0 st).
Proof.
  unfold minit. cbv zeta. unfold trigger_startup. destruct (plains (startups x) (mkM (fold_left (enable p) (reactors p) (blank p t0 st)) [] [])) as (A & _).
  destruct (startup_reset_spec [] (fold_left (plain x) (startups x) (mkM (fold_left (enable p) (reactors p) (blank p t0 st)) [] []))) as (B & _). rewrite B, A. cbn [base].
  match goal with |- base (if ?c then trigger_shutdown x ?s1 else _) = _ => destruct (shutdown_spec s1) as (D & _); destruct c; [rewrite D|] end; reflexivity.
Qed.

Lemma minv_init t0 st : reactions_ok p x -> let s := minit p x t0 st in let r := round_of s [] in minv s [r] /\ forall y, In y (queued s) <-> due p x r [] y.
Proof.
  intros RO. cbv zeta. pose proof (init_good p OK t0 st) as G. rewrite <- minit_base in G.
  assert (forall m, (owner p m < size p)%nat -> act (flags (base (minit p x t0 st)) m) = true <-> active_in p (round_of (minit p x t0 st) []) m) as Ac0 by (intros m Hm; apply (local_active p OK); [apply G|exact Hm]).
  pose proof (minit_base t0 st) as Eb.
  revert G Ac0 Eb. unfold minit. cbv zeta. unfold trigger_startup. set (b0 := fold_left (enable p) (reactors p) (blank p t0 st)).
  assert ((forall m, flags b0 m = mkFlags (act (flags b0 m)) (act (flags b0 m)) false false) /\ req_startup b0 = true /\ req_reset b0 = false /\ stop b0 = st /\ now b0 = mkTag t0 0 /\ cur b0 = initial p) as (F0 & R1 & R2 & R3 & R4 & R5) by now apply enable_flags.
  assert (good p b0) as G0.
  { unfold b0, reactors. destruct (enables p OK (size p) 0 (blank p t0 st)) as (A & B & C); try lia; auto.
    - intros i Hi. now apply (po_initial _ OK).
    - split; [split|].
      + intros i Hi. rewrite A. now apply (po_initial _ OK).
      + intros i m _. rewrite B. discriminate.
      + intros m Hm. apply C. lia. }
  destruct (plains (startups x) (mkM b0 [] [])) as (A1 & A2 & A3 & A4). set (s1 := fold_left (plain x) (startups x) (mkM b0 [] [])) in *.
  destruct (startup_reset_spec [] s1) as (B1 & B2 & B3 & B4). set (s2 := startup_reset p x [] s1) in *. rewrite A1 in B1. cbn [base] in B1.
  pose proof (handled_flags b0 G0) as HF. rewrite <- B1 in HF.
  assert (forall l s, let s' := fst (each (init_timer p) l s) in cur s' = cur s /\ flags s' = flags s /\ now s' = now s /\ stop s' = stop s) as Ti.
  { intros l s. cbv zeta. apply (each_pres (fun s' => cur s' = cur s /\ flags s' = flags s /\ now s' = now s /\ stop s' = stop s)); [|auto]. intros s' tr _ (E1 & E2 & E3 & E4). unfold init_timer. destruct (is_active s' (tmode p tr)); cbn; auto. }
  destruct (Ti (timers p) (base s2)) as (T1 & T2 & T3 & T4). set (b3 := fst (each (init_timer p) (timers p) (base s2))) in *. clearbody b3. clear Ti.
  set (s3 := mkM b3 (released s2) (queued s2)).
  assert (released s2 = []) as Rel by (rewrite B2, A2; reflexivity).
  assert (forall y, In y (queued s3) <-> In y (startups x) /\ match rmode x y with None => True | Some m => act (flags b0 m) = true end) as Q3.
  { intros y. cbn [s3 queued]. rewrite B4, A4, A1. cbn [base queued In]. rewrite R1, R2. unfold wants. rewrite A1. cbn [base]. assert (mode_of x s1 y = rmode x y /\ mode_of x (mkM b0 [] []) y = rmode x y) as (-> & ->) by (unfold mode_of; rewrite A2; auto).
    destruct (rmode x y) as [m|].
    - split.
      + intros [[[]|(_ & K)]|[(K1 & _ & m' & K2 & K3 & _)|(K & _)]]; [discriminate|injection K2 as <-; auto|easy].
      + intros (K1 & K2). right. left. split; [exact K1|]. split; [reflexivity|]. exists m. split; [reflexivity|]. split; [exact K2|]. rewrite F0. exact K2.
    - split; [intros [[[]|(K & _)]|[(_ & _ & m' & K2 & _)|(K & _)]]; [auto|discriminate|easy]|]. intros (K & _). left. right. auto. }
  assert (NoDup (queued s3)) as N3 by (apply B3, A3; constructor).
  assert (forall m, (owner p m < size p)%nat -> flags b3 m = mkFlags (act (flags b0 m)) false (act (flags b0 m)) false) as F3.
  { intros m Hm. rewrite T2, HF by exact Hm. destruct (act (flags b0 m)) eqn:Am; rewrite F0, Am; reflexivity. }
  destruct (shutdown_spec s3) as (S1 & S2 & S3 & S4).
  set (s := if at_stop s3 then trigger_shutdown x s3 else s3).
  assert (base s = b3) as Bs by (unfold s; destruct (at_stop s3); [exact S1|reflexivity]).
  intros G Ac Eb.
  assert (forall m, (owner p m < size p)%nat -> act (flags b0 m) = true <-> active_in p (round_of s []) m) as Ac'.
  { intros m Hm. rewrite <- (Ac m Hm). rewrite Bs, F3 by exact Hm. reflexivity. }
  set (r := round_of s []) in *.
  assert (forall m c, ~ enters r m c) as En by (intros m c []).
  assert (forall m, begun p [r] m <-> active_in p r m) as Bg.
  { intros m. unfold begun. split; [intros [(r' & c & [<-|[]] & E)|(h' & r' & E & A)]; [destruct (En m c E)|]|right; exists [], r; auto].
    destruct h' as [|a [|b h']]; [injection E as <-; exact A|discriminate|discriminate]. }
  assert (forall m, seen p [r] m <-> active_in p r m) as Sn. { intros m. rewrite seen_cons, Bg. split; [intros [(h1 & r1 & h2 & E & _)|]; [destruct h1; discriminate|tauto]|auto]. }
  assert (at_stop s = at_stop s3) as As by (unfold at_stop; now rewrite Bs).
  split.
  - split.
    + rewrite Bs in G. rewrite Bs. exact G.
    + rewrite As. unfold s. destruct (at_stop s3); [now right|left]. exact Rel.
    + exists r, []. repeat split.
    + intros m Hm. rewrite Bs, F3, Sn by exact Hm. cbn [had_startup]. apply Ac', Hm.
    + intros m Hm. rewrite Bs, F3, Sn, Bg by exact Hm. cbn [needs_startup]. split; [discriminate|]. tauto.
    + intros m Hm. rewrite Bs, F3 by exact Hm. cbn [needs_reset]. split; [discriminate|]. intros P. apply pending_cons in P. destruct P as (P & _). apply pre_cons in P. destruct P as [P|(_ & h1 & r1 & h2 & E & _)]; [destruct (En _ _ P)|destruct h1; discriminate].
    + intros i Hi. left. rewrite Bs, T1, B1. destruct (handled_act p b0) as (H1 & _). now rewrite H1, R5.
    + unfold s. destruct (at_stop s3); auto.
    + intros r' m c [<-|[]] Er. destruct (En m c Er).
  - intros y. unfold due. change (r_last r) with (at_stop s). rewrite As.
    assert (forall z, mode_of x s3 z = rmode x z) as M3 by (intros z; unfold mode_of, s3; cbn [released]; rewrite Rel; reflexivity).
    destruct (rmode x y) as [m|] eqn:Ry.
    + pose proof (RO y m Ry) as Hm. unfold startup_due, reset_due, shutdown_due. fold (pre_reset r [] m). change (r_last r) with (at_stop s). rewrite As, Bg, <- (Ac' m Hm).
      assert (~ pre_reset r [] m) as Np. { intros P. apply pre_cons in P. destruct P as [P|(_ & h1 & r1 & h2 & E & _)]; [destruct (En _ _ P)|destruct h1; discriminate]. }
      assert (~ seen p [] m) as Ns by (intros (h1 & r1 & h2 & E & _); destruct h1; discriminate).
      assert (had s3 y <-> act (flags b0 m) = true) as Hd.
      { unfold had. rewrite M3, Ry. cbn [s3 base]. split; [intros (m' & E & K); injection E as <-; rewrite F3 in K by exact Hm; exact K|]. intros K. exists m. split; [reflexivity|]. rewrite F3 by exact Hm. exact K. }
      unfold s. destruct (at_stop s3).
      * rewrite S3, Q3, M3, Ry, Hd. split.
        -- intros [(K1 & K2)|(K1 & [K2|K2])]; [left; auto|discriminate|right; right; auto].
        -- intros [(K1 & K2 & _)|[(_ & _ & K)|(K1 & _ & [K|(_ & K)])]]; [auto|contradiction|contradiction|auto].
      * rewrite Q3, Ry. split; [intros (K1 & K2); left; auto|]. intros [(K1 & K2 & _)|[(_ & _ & K)|(_ & K & _)]]; [auto|contradiction|discriminate].
    + unfold s. destruct (at_stop s3).
      * rewrite S3, Q3, M3, Ry. split; [intros [(K & _)|(K & _)]; auto|]. intros [(K & _)|[(_ & [])|(K & _)]]; auto.
      * rewrite Q3, Ry. split; [intros (K & _); auto|]. intros [(K & _)|[(_ & [])|(_ & K)]]; [auto|discriminate].
Qed.

Lemma mexec_inv t0 st s h : reactions_ok p x -> mexec p x t0 st s h ->
  minv s h /\ exists r h', h = r :: h' /\ forall y, In y (r_queue r) <-> due p x r h' y.
Proof.
  intros RO X. induction X as [|s h o s' l X IH A N St|s h t s' l X IH L St|s h t s' l X IH A St].
  - destruct (minv_init t0 st RO) as (V & Q). split; [exact V|]. eexists. exists []. split; [reflexivity|]. exact Q.
  - destruct IH as (V & Q). split; [|exact Q].
    assert (exists b, step p (base s) o = Some (b, l) /\ s' = mkM b (released s) (queued s)) as (b & Sb & ->).
    { destruct o as [i m c|tr u|l0|u]; cbn [mstep] in St; try (destruct (N u); reflexivity); (destruct (step p (base s) _) as [[b e]|]; [|discriminate]; injection St as <- <-; now exists b). }
    pose proof (step_good p OK _ _ _ _ (i_good _ _ V) A Sb) as G.
    destruct o as [i m c|tr u|l0|u]; cbn [step] in Sb; try (destruct (N u); reflexivity); injection Sb as <- <-; (apply (minv_within s h); [exact V|exact G|reflexivity|reflexivity|intros E; exact E]).
  - destruct IH as (V & Q). split; [|exact Q]. cbn [mstep] in St. destruct (tag_compare t (stop (base s)) <? 0) eqn:C; injection St as <- <-; [|exact V].
    apply (minv_within s h); [exact V| |reflexivity|reflexivity|].
    + eapply good_ext; [| | |exact (i_good _ _ V)]; reflexivity.
    + unfold at_stop. cbn [base now stop]. intros E. exfalso. apply cmp_ge0 in E. apply cmp_lt0 in C. apply (tag_lt_irrefl (now (base s))). eapply tag_lt_trans; [exact L|]. eapply tag_lt_le_trans; eassumption.
  - destruct IH as (V & _). destruct (minv_round s h t s' l RO V St) as (V' & Q'). split; [exact V'|]. eexists. eexists. split; [reflexivity|]. exact Q'.
Qed.
End P.
