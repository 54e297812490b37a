(** Proofs for C63: the schedulers are orderly. *)
From Verif Require Import Base SchedSpec Determinism DeterminismSpec DeterminismProofs.
From Verif Require SchedNP SchedNPProps SchedAdaptive SchedAdaptiveProps SchedGEDF SchedGEDFSpec SchedGEDFProofs.
Open Scope nat_scope.

Section Sched.
Variables (top : nat) (lvl : reaction -> nat) (reads writes : reaction -> loc -> bool).
Hypothesis Apart : forall q r, q <> r -> lvl q = lvl r -> ~ conflict reads writes q r.
Notation orderly_run := (orderly_run lvl reads writes).
Notation orderly := (orderly lvl reads writes).

(** *** Level by level *)
Record follows (n : nat) (o : observed) (g : ghost) : Prop := {
  f_busy : forall w, busy o w = gB g w;
  f_nodup : forall l, NoDup (pending o l);
  f_pend : forall l r, In r (pending o l) -> lvl r = l /\ In r (gG g) /\ ~ In r (gT g);
  f_low : forall l, l < level o -> pending o l = [];
  f_run : forall w r, gB g w = Some r -> w < n /\ lvl r = level o;
  f_taken : forall r, In r (gT g) -> lvl r <= level o /\ (In r (gD g) \/ exists w, gB g w = Some r);
  f_all : forall r, In r (gG g) -> lvl r <= top /\ (In r (gT g) \/ In r (pending o (lvl r))) }.

Lemma remove_one_members r l : forall l', remove_one r l = Some l' -> NoDup l -> In r l /\ ~ In r l' /\ NoDup l' /\ forall x, In x l' <-> In x l /\ x <> r.
Proof.
  induction l as [|x l IH]; intros l' H N; cbn [remove_one] in H; [discriminate|]. inversion N as [|? ? N1 N2]; subst.
  destruct (Nat.eqb_spec x r) as [->|Ne].
  - injection H as <-. split; [now left|]. split; [exact N1|]. split; [exact N2|]. intros y. split; [intros Hy; split; [now right|intros ->; contradiction]|intros ([->|Hy] & Hr); [contradiction|exact Hy]].
  - destruct (remove_one r l) as [l2|]; [|discriminate]. injection H as <-. destruct (IH l2 eq_refl N2) as (I1 & I2 & I3 & I4).
    split; [now right|]. split; [intros [E|H]; [contradiction|contradiction]|]. split; [constructor; [intros H; apply I4 in H; tauto|exact I3]|].
    intros y. cbn [In]. rewrite I4. split; [intros [<-|(H1 & H2)]; [split; [now left|exact Ne]|split; [now right|exact H2]]|intros ([H|H] & Hr); [now left|right; auto]].
Qed.

Lemma add_members p r l x : In x (add lvl p r l) <-> In x (p l) \/ (x = r /\ l = lvl r).
Proof.
  unfold add. destruct (existsb (Nat.eqb r) (p (lvl r))) eqn:E.
  - apply existsb_exists in E as (y & E1 & E2). apply Nat.eqb_eq in E2 as <-. split; [auto|intros [H|(-> & ->)]; auto].
  - unfold set_nat. destruct (Nat.eqb_spec l (lvl r)) as [->|Ne]; [cbn [In]; split; [intros [<-|H]; auto|intros [H|(-> & _)]; auto]|split; [auto|intros [H|(_ & H)]; [exact H|contradiction]]].
Qed.
Lemma add_nodup p r : (forall l, NoDup (p l)) -> forall l, NoDup (add lvl p r l).
Proof.
  intros N l. unfold add. destruct (existsb (Nat.eqb r) (p (lvl r))) eqn:E; [apply N|]. unfold set_nat. destruct (Nat.eqb_spec l (lvl r)) as [->|]; [|apply N].
  constructor; [|apply N]. intros H. assert (existsb (Nat.eqb r) (p (lvl r)) = true) by (apply existsb_exists; exists r; split; [exact H|apply Nat.eqb_refl]). congruence.
Qed.
Lemma add_all_members rs : forall p l x, In x (fold_left (add lvl) rs p l) <-> In x (p l) \/ (In x rs /\ l = lvl x).
Proof.
  induction rs as [|r rs IH]; intros p l x; cbn [fold_left In]; [tauto|]. rewrite IH, add_members. split.
  - intros [[H|(-> & ->)]|(H1 & H2)]; auto.
  - intros [H|([->|H1] & H2)]; auto.
Qed.
Lemma add_all_nodup rs : forall p, (forall l, NoDup (p l)) -> forall l, NoDup (fold_left (add lvl) rs p l).
Proof. induction rs as [|r rs IH]; intros p N; cbn [fold_left]; [exact N|]. apply IH. now apply add_nodup. Qed.

Lemma follows_start n ts : (forall r, In r ts -> lvl r <= top) -> follows n (observed0 lvl ts) (mkGhost [] ts [] (fun _ => None)).
Proof.
  intros T. constructor; cbn [observed0 pending level busy gT gG gD gB]; try easy.
  - intros l. apply add_all_nodup. intros k. constructor.
  - intros l r H. apply add_all_members in H as [[]|(H & ->)]. auto.
  - intros r H. split; [now apply T|right]. apply add_all_members. auto.
Qed.

Lemma follows_step n o g e o' : follows n o g -> accept n top lvl o e = Some o' -> orderly g e /\ follows n o' (gstep g e).
Proof.
  intros F H. destruct e as [w r|w r|w| |rs]; cbn [accept] in H.
  - (* Trigger *) destruct (busy o w) as [q|] eqn:B; [|discriminate]. rewrite (f_busy _ _ _ F) in B. destruct (Nat.ltb_spec (level o) (lvl r)) as [L|]; [|discriminate].
    destruct (Nat.leb_spec (lvl r) top) as [L2|]; [|discriminate]. cbn [andb] in H. injection H as <-. split; [cbn; congruence|].
    constructor; cbn [gstep pending level busy gT gG gD gB]; try apply F.
    + apply add_nodup, F.
    + intros l x Hx. apply add_members in Hx as [Hx|(-> & ->)].
      * destruct (f_pend _ _ _ F l x Hx) as (K1 & K2 & K3). split; [exact K1|]. split; [now right|exact K3].
      * split; [reflexivity|]. split; [now left|]. intros K. apply (f_taken _ _ _ F) in K as (K & _). lia.
    + intros l Hl. pose proof (f_low _ _ _ F l Hl) as K. unfold add. destruct (existsb _ _); [exact K|]. rewrite set_nat_neq; [exact K|lia].
    + intros x [<-|Hx].
      * split; [exact L2|]. right. apply add_members. auto.
      * destruct (f_all _ _ _ F x Hx) as (K1 & [K2|K2]); split; auto. right. apply add_members. auto.
  - (* Take *) destruct (busy o w) as [q|] eqn:B; [discriminate|]. rewrite (f_busy _ _ _ F) in B. destruct (remove_one r (pending o (level o))) as [l|] eqn:R; [|discriminate].
    destruct (Nat.eqb_spec (lvl r) (level o)) as [L|]; [|discriminate]. destruct (Nat.ltb_spec w n) as [W|]; [|discriminate]. cbn [andb] in H. injection H as <-.
    destruct (remove_one_members r _ _ R (f_nodup _ _ _ F _)) as (R1 & R2 & R3 & R4). destruct (f_pend _ _ _ F _ _ R1) as (_ & P2 & P3).
    split.
    + cbn. split; [exact B|]. split; [exact P2|]. split; [exact P3|]. intros q Hq C. destruct (f_taken _ _ _ F q Hq) as (K1 & K2).
      assert (q <> r) by (intros ->; contradiction). assert (lvl q <> lvl r) by (intros E; exact (Apart q r H E C)). split; [|lia].
      destruct K2 as [K2|(v & K2)]; [exact K2|]. apply (f_run _ _ _ F) in K2. lia.
    + constructor; cbn [gstep pending level busy gT gG gD gB].
      * intros v. unfold set_nat. destruct (Nat.eqb v w); [reflexivity|apply F].
      * intros k. unfold set_nat. destruct (Nat.eqb_spec k (level o)); [exact R3|apply F].
      * intros k x Hx. assert (Kx : In x (pending o k) /\ x <> r).
        { unfold set_nat in Hx. destruct (Nat.eqb_spec k (level o)) as [->|Ne]; [now apply R4|]. split; [exact Hx|]. intros ->. apply (f_pend _ _ _ F) in Hx as (Hx & _). lia. }
        destruct Kx as (K1 & K2). destruct (f_pend _ _ _ F k x K1) as (K3 & K4 & K5). split; [exact K3|]. split; [exact K4|]. intros [<-|K]; contradiction.
      * intros k Hk. rewrite set_nat_neq by lia. now apply F.
      * intros v x Hv. apply set_other in Hv as [(-> & Hv)|(_ & Hv)]; [injection Hv as <-; auto|now apply (f_run _ _ _ F v)].
      * intros x [<-|Hx]; [split; [lia|right; exists w; apply set_nat_eq]|]. destruct (f_taken _ _ _ F x Hx) as (K1 & [K2|(v & K2)]); split; auto. right. exists v. rewrite set_nat_neq; [exact K2|]. intros ->. congruence.
      * intros x Hx. destruct (f_all _ _ _ F x Hx) as (K1 & [K2|K2]); (split; [exact K1|]); [left; now right|].
        destruct (Nat.eq_dec x r) as [->|Ne]; [left; now left|right]. unfold set_nat. destruct (Nat.eqb_spec (lvl x) (level o)) as [E|]; [rewrite E in K2; now apply R4|exact K2].
  - (* Done *) destruct (busy o w) as [q|] eqn:B; [|discriminate]. rewrite (f_busy _ _ _ F) in B. injection H as <-. split; [cbn; congruence|].
    constructor; cbn [gstep pending level busy gT gG gD gB]; rewrite ?B; try apply F.
    + intros v. unfold set_nat. destruct (Nat.eqb v w); [reflexivity|apply F].
    + intros v x Hv. apply set_other in Hv as [(-> & Hv)|(_ & Hv)]; [discriminate|now apply (f_run _ _ _ F v)].
    + intros x Hx. destruct (f_taken _ _ _ F x Hx) as (K1 & [K2|(v & K2)]); (split; [exact K1|]); [left; now right|].
      destruct (Nat.eq_dec v w) as [->|Ne]; [left; left; congruence|right; exists v; now rewrite set_nat_neq].
  - (* NextLevel *) destruct (settled n o) eqn:S; [|discriminate]. destruct (Nat.ltb_spec (level o) top) as [L|]; [|discriminate]. cbn [andb] in H. injection H as <-.
    apply andb_prop in S as (S1 & S2). rewrite forallb_forall in S2. split; [exact Logic.I|].
    assert (N : forall w, gB g w = None).
    { intros w. destruct (gB g w) as [r|] eqn:E; [|reflexivity]. destruct (f_run _ _ _ F w r E) as (K & _). specialize (S2 w ltac:(apply in_seq; lia)). rewrite (f_busy _ _ _ F), E in S2. discriminate. }
    constructor; cbn [gstep pending level busy gT gG gD gB]; try apply F.
    + intros l Hl. destruct (Nat.eq_dec l (level o)) as [->|]; [|apply F; lia]. destruct (pending o (level o)); [reflexivity|discriminate].
    + intros w r E. rewrite N in E. discriminate.
    + intros r Hr. destruct (f_taken _ _ _ F r Hr) as (K1 & K2). split; [lia|exact K2].
  - (* NextTag *) destruct (settled n o) eqn:S; [|discriminate]. destruct (Nat.eqb_spec (level o) top) as [L|]; [|discriminate]. cbn [andb] in H.
    destruct (forallb (fun r => lvl r <=? top) rs) eqn:T; [|discriminate]. injection H as <-. rewrite forallb_forall in T.
    apply andb_prop in S as (S1 & S2). rewrite forallb_forall in S2.
    assert (N : forall w, gB g w = None).
    { intros w. destruct (gB g w) as [r|] eqn:E; [|reflexivity]. destruct (f_run _ _ _ F w r E) as (K & _). specialize (S2 w ltac:(apply in_seq; lia)). rewrite (f_busy _ _ _ F), E in S2. discriminate. }
    assert (Z : forall l, l <= top -> pending o l = []).
    { intros l Hl. destruct (Nat.eq_dec l (level o)) as [->|]; [destruct (pending o (level o)); [reflexivity|discriminate]|apply F; lia]. }
    split.
    + cbn. split; [exact N|]. intros r Hr. destruct (f_all _ _ _ F r Hr) as (K1 & [K2|K2]); [exact K2|]. rewrite (Z _ K1) in K2. destruct K2.
    + assert (Z2 : forall l, pending o l = []).
      { intros l. destruct (pending o l) as [|r p] eqn:E; [reflexivity|]. assert (K : In r (pending o l)) by (rewrite E; now left).
        destruct (f_pend _ _ _ F l r K) as (<- & K2 & _). destruct (f_all _ _ _ F r K2) as (K3 & _). rewrite (Z _ K3) in E. discriminate. }
      constructor; cbn [gstep pending level busy gT gG gD gB].
      * apply F.
      * apply add_all_nodup, F.
      * intros l r Hr. apply add_all_members in Hr as [Hr|(Hr & ->)]; [rewrite Z2 in Hr; destruct Hr|]. auto.
      * intros l Hl. lia.
      * intros w r E. rewrite N in E. discriminate.
      * intros r [].
      * intros r Hr. split; [apply Nat.leb_le, T, Hr|right]. apply add_all_members. auto.
Qed.

Lemma accepted_orderly n es : forall o g, follows n o g -> accepts n top lvl o es <> None -> orderly_run g es.
Proof.
  induction es as [|e es IH]; intros o g F H; cbn [DeterminismProofs.orderly_run]; [exact Logic.I|]. cbn [accepts] in H.
  destruct (accept n top lvl o e) as [o'|] eqn:E; [|contradiction]. destruct (follows_step _ _ _ _ _ F E) as (O & F'). split; [exact O|]. exact (IH o' _ F' H).
Qed.

(** *** By deadline *)
Section Edf.
Import SchedGEDF SchedGEDFSpec SchedGEDFProofs.
Variables (n : nat) (prio : reaction -> Z) (may : reaction -> reaction -> Prop) (ts : list reaction).
Hypothesis Hn : 1 <= n.
Hypothesis Lev : levelled top lvl may.
Hypothesis Inh : inherits prio may.
Hypothesis Con : forall q r, conflict reads writes q r -> lvl q < lvl r -> (prio q < prio r)%Z.
Hypothesis Top : forall r, In r ts -> lvl r <= top.

Definition grun (g : ghost) (es : list event) : ghost := fold_left gstep es g.
Lemma orderly_app es : forall g es', orderly_run g (es ++ es') <-> orderly_run g es /\ orderly_run (grun g es) es'.
Proof. induction es as [|e es IH]; intros g es'; cbn [app DeterminismProofs.orderly_run grun fold_left]; [tauto|]. rewrite IH. unfold grun. tauto. Qed.

Record edf_follows (o : observed_edf) (g : ghost) : Prop := {
  e_busy : forall w, executing o w = gB g w;
  e_wait : incl (waiting o) (gG g);
  e_run : forall w r, gB g w = Some r -> w < n;
  e_taken : forall r, In r (gT g) -> In r (gD g) \/ exists w, gB g w = Some r;
  e_all : forall r, In r (gG g) -> In r (gT g) \/ In r (waiting o) }.

Lemma grun_taken es : forall g, gT (grun g es) = taken (gT g) es.
Proof. induction es as [|e es IH]; intros g; cbn [grun fold_left taken]; [reflexivity|]. change (fold_left gstep es (gstep g e)) with (grun (gstep g e) es). rewrite IH. destruct e; reflexivity. Qed.

Lemma add_edf_all rs : forall l x, In x (fold_left add_edf rs l) <-> In x l \/ In x rs.
Proof.
  induction rs as [|r rs IH]; intros l x; cbn [fold_left In]; [tauto|]. rewrite IH, in_add_edf. split; [intros [[->|H]|H]; auto|intros [H|[->|H]]; auto].
Qed.
Lemma remove_one_incl r l : forall l', remove_one r l = Some l' -> In r l /\ incl l' l /\ forall x, In x l -> x = r \/ In x l'.
Proof.
  induction l as [|y l IH]; intros l' H; cbn [remove_one] in H; [discriminate|]. destruct (Nat.eqb_spec y r) as [->|Ne].
  - injection H as <-. split; [now left|]. split; [intros x Hx; now right|intros x [<-|Hx]; auto].
  - destruct (remove_one r l) as [l2|]; [|discriminate]. injection H as <-. destruct (IH l2 eq_refl) as (I1 & I2 & I3). split; [now right|]. split.
    + intros x [<-|Hx]; [now left|right; now apply I2].
    + intros x [<-|Hx]; [right; now left|]. destruct (I3 x Hx); [auto|right; now right].
Qed.

Lemma edf_step o g e o' : edf_follows o g -> accept_edf n prio lvl o e = Some o' ->
  (forall w r, e = Take w r -> ~ In r (gT g) /\ forall q, In q (gT g) -> (prio q <= prio r)%Z \/ lvl q <= lvl r) ->
  orderly g e /\ edf_follows o' (gstep g e).
Proof.
  intros F H Tk. destruct e as [w r|w r|w| |rs]; cbn [accept_edf] in H.
  - destruct (executing o w) as [q|] eqn:B; [|discriminate]. rewrite (e_busy _ _ F) in B. injection H as <-. split; [cbn; congruence|].
    constructor; cbn [gstep waiting executing gT gG gD gB]; try apply F.
    + intros x Hx. apply in_add_edf in Hx as [->|Hx]; [now left|right; now apply F].
    + intros x [<-|Hx]; [right; apply in_add_edf; now left|]. destruct (e_all _ _ F x Hx) as [K|K]; [now left|right; apply in_add_edf; now right].
  - destruct (executing o w) as [q|] eqn:B; [discriminate|]. rewrite (e_busy _ _ F) in B. destruct (remove_one r (waiting o)) as [l|] eqn:R; [|discriminate].
    destruct (forallb (fun x => (prio r <=? prio x)%Z) (waiting o)) eqn:P; [|discriminate]. cbn [andb] in H.
    destruct (forallb _ (seq 0 n)) eqn:S; [|discriminate]. destruct (Nat.ltb_spec w n) as [W|]; [|discriminate]. cbn [andb] in H. injection H as <-. rewrite forallb_forall in S.
    destruct (remove_one_incl _ _ _ R) as (R1 & R2 & R3). destruct (Tk w r eq_refl) as (T1 & T2). split.
    + cbn. split; [exact B|]. split; [now apply F|]. split; [exact T1|]. intros q Hq C.
      assert (Ne : q <> r) by (intros ->; contradiction). assert (Lq : lvl q <> lvl r) by (intros E; exact (Apart q r Ne E C)).
      assert (Ll : lvl q < lvl r).
      { destruct (T2 q Hq) as [K|K]; [|lia]. destruct (Nat.lt_ge_cases (lvl q) (lvl r)) as [|G]; [assumption|]. assert (C' : conflict reads writes r q) by (destruct C as (x & C); exists x; tauto).
        pose proof (Con r q C' ltac:(lia)). lia. }
      split; [|exact Ll]. destruct (e_taken _ _ F q Hq) as [K|(v & K)]; [exact K|]. pose proof (e_run _ _ F v q K) as Hv.
      specialize (S v ltac:(apply in_seq; lia)). rewrite (e_busy _ _ F), K in S. apply Nat.eqb_eq in S. contradiction.
    + constructor; cbn [gstep waiting executing gT gG gD gB].
      * intros v. unfold set_nat. destruct (Nat.eqb v w); [reflexivity|apply F].
      * intros x Hx. apply (e_wait _ _ F). now apply R2.
      * intros v x Hv. apply set_other in Hv as [(-> & Hv)|(_ & Hv)]; [exact W|now apply (e_run _ _ F v x)].
      * intros x [<-|Hx]; [right; exists w; apply set_nat_eq|]. destruct (e_taken _ _ F x Hx) as [K|(v & K)]; [now left|right]. exists v. rewrite set_nat_neq; [exact K|]. intros ->. congruence.
      * intros x Hx. destruct (e_all _ _ F x Hx) as [K|K]; [left; now right|]. destruct (R3 x K) as [->|K2]; [left; now left|now right].
  - destruct (executing o w) as [q|] eqn:B; [|discriminate]. rewrite (e_busy _ _ F) in B. injection H as <-. split; [cbn; congruence|].
    constructor; cbn [gstep waiting executing gT gG gD gB]; rewrite ?B; try apply F.
    + intros v. unfold set_nat. destruct (Nat.eqb v w); [reflexivity|apply F].
    + intros v x Hv. apply set_other in Hv as [(-> & Hv)|(_ & Hv)]; [discriminate|now apply (e_run _ _ F v x)].
    + intros x Hx. destruct (e_taken _ _ F x Hx) as [K|(v & K)]; [left; now right|].
      destruct (Nat.eq_dec v w) as [->|Ne]; [left; left; congruence|right; exists v; now rewrite set_nat_neq].
  - discriminate.
  - destruct (is_nil (waiting o)) eqn:N0; [|discriminate]. destruct (forallb _ (seq 0 n)) eqn:S; [|discriminate]. injection H as <-. rewrite forallb_forall in S.
    assert (N : forall w, gB g w = None).
    { intros w. destruct (gB g w) as [r|] eqn:E; [|reflexivity]. pose proof (e_run _ _ F w r E) as K. specialize (S w ltac:(apply in_seq; lia)). rewrite (e_busy _ _ F), E in S. discriminate. }
    split.
    + cbn. split; [exact N|]. intros r Hr. destruct (e_all _ _ F r Hr) as [K|K]; [exact K|]. destruct (waiting o); [destruct K|discriminate].
    + constructor; cbn [gstep waiting executing gT gG gD gB].
      * apply F.
      * intros x Hx. apply add_edf_all in Hx as [[]|Hx]. exact Hx.
      * intros w r E. rewrite N in E. discriminate.
      * intros r [].
      * intros r Hr. right. apply add_edf_all. now right.
Qed.

Lemma short_step s e s' es : step n top prio lvl s e = Next s' es -> es = [] \/ exists x, es = [x].
Proof.
  intros H. destruct e as [w|w|w r|w r|w|w stop rs]; cbn [step] in H.
  - destruct (negb (w <? n)); [discriminate|]. destruct (pcs s w), (holder s); try discriminate; injection H as <- <-; auto.
  - destruct (pcs s w); try discriminate; injection H as <- <-; auto.
  - destruct (pcs s w); try discriminate. destruct (should_stop s); [injection H as <- <-; auto|]. destruct (queue s) as [|a q]; [destruct (idle s =? n - 1); injection H as <- <-; auto|].
    destruct (negb (least prio r (a :: q))); [discriminate|]. destruct (lvl r =? current s); [|destruct (idle s =? n - 1); injection H as <- <-; auto].
    destruct (remove_one r (a :: q)); [|discriminate]. injection H as <- <-. eauto.
  - destruct (pcs s w); try discriminate. destruct (holder s); try discriminate. injection H as <- <-. eauto.
  - destruct (pcs s w); try discriminate. destruct (queued s r); [|discriminate]. injection H as <- <-. eauto.
  - destruct (pcs s w); try discriminate. destruct (holder s); try discriminate. destruct stop; injection H as <- <-; eauto.
Qed.

Lemma pairs_head {A} (R : A -> A -> Prop) x l : ForallOrdPairs R (x :: l) -> forall y, In y l -> R x y.
Proof. intros H y Hy. inversion H as [|? ? F _]; subst. rewrite Forall_forall in F. auto. Qed.

Lemma edf_orderly s es : exec n top prio lvl may (init ts) s es ->
  orderly_run (mkGhost [] ts [] (fun _ => None)) es /\
  forall o, accepts_edf n prio lvl (edf0 ts) es = Some o -> edf_follows o (grun (mkGhost [] ts [] (fun _ => None)) es).
Proof.
  set (g0 := mkGhost [] ts [] (fun _ => None)).
  induction 1 as [|s es e s' es' X IH A E].
  - split; [exact Logic.I|]. intros o Ho. injection Ho as <-. constructor; cbn; try easy.
    + intros x Hx. apply add_edf_all in Hx as [[]|Hx]. exact Hx.
    + intros r Hr. right. apply add_edf_all. now right.
  - assert (X' : exec n top prio lvl may (init ts) s' (es ++ es')) by (econstructor; eassumption).
    destruct (exec_inv n top prio lvl may Hn Lev ts Top s es X) as (o & Ao & _). destruct (exec_inv n top prio lvl may Hn Lev ts Top s' _ X') as (o' & Ao' & _).
    pose proof (once_events n top prio lvl may Hn Lev ts Top Inh s' _ X' o' Ao') as On.
    destruct IH as (IH1 & IH2). specialize (IH2 o Ao).
    destruct (short_step _ _ _ _ E) as [->|(x & ->)].
    + rewrite app_nil_r in *. split; [exact IH1|]. intros o2 Ho2. rewrite Ao in Ho2. injection Ho2 as <-. exact IH2.
    + pose proof Ao' as Ax. rewrite accepts_edf_app, Ao in Ax. cbn [accepts_edf] in Ax. destruct (accept_edf n prio lvl o x) as [o1|] eqn:Ac; [|discriminate]. injection Ax as ->.
      destruct (edf_step o (grun g0 es) x o' IH2 Ac) as (O & F).
      { intros w r ->. rewrite taken_app in On. cbn [taken] in On. rewrite grun_taken. cbn [gT g0].
        pose proof (t_nodup _ _ _ _ On) as T1. inversion T1; subst. split; [assumption|]. intros q Hq. exact (pairs_head _ _ _ (t_order _ _ _ _ On) q Hq). }
      split.
      * apply orderly_app. split; [exact IH1|]. cbn. auto.
      * intros o2 Ho2. rewrite Ao' in Ho2. injection Ho2 as <-. unfold grun. rewrite fold_left_app. exact F.
Qed.
End Edf.

Lemma execution_orderly rs ts es : incl ts rs -> execution top lvl reads writes rs ts es -> orderly_run (mkGhost [] ts [] (fun _ => None)) es.
Proof.
  intros Inc X. destruct X as [n s0 s es P I X|n hash s0 s es P I X|n prio may s es P Lev Inh Con X].
  - apply (accepted_orderly n es (observed0 lvl ts)); [apply follows_start; intros r Hr; apply (p_top _ _ _ _ P), Inc, Hr|].
    destruct (SchedNPProps.C31_schedule n top lvl rs ts P Inc) as (s1 & I1 & K). rewrite I in I1. injection I1 as <-. exact (K s es X).
  - apply (accepted_orderly n es (observed0 lvl ts)); [apply follows_start; intros r Hr; apply (p_top _ _ _ _ P), Inc, Hr|].
    exact (SchedAdaptiveProps.C59_schedule n top lvl rs hash ts s0 s es P Inc I X).
  - apply (edf_orderly n prio may ts (p_workers _ _ _ _ P) Lev Inh Con) with (s := s); [|exact X]. intros r Hr. apply (p_top _ _ _ _ P), Inc, Hr.
Qed.
End Sched.
