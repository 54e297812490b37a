(** Proofs for C63: what the memory contains is what the executed reactions, one after the other in
    the order in which they ended, would have made of it; and that order does not matter. *)
From Verif Require Import Base SchedSpec Determinism DeterminismSpec.

Section Proofs.
Variable lvl : reaction -> nat.
Variable prog : reaction -> body.
Variables reads writes : reaction -> loc -> bool.
Variable boundary : memory -> list reaction * memory.
Hypothesis LP : levelled_program lvl prog reads writes.

Notation conf := (conflict reads writes).
Definition foot (r : reaction) (x : loc) : Prop := reads r x = true \/ writes r x = true.

(** A body executed without interference. *)
Fixpoint eval (b : body) (m : memory) : memory * list reaction :=
  match b with
  | Ret => (m, [])
  | Read x k => eval (k (m x)) m
  | Write x v k => eval k (set_mem m x v)
  | Trig q k => (fst (eval k m), q :: snd (eval k m))
  end.

Definition agree (r : reaction) (m m' : memory) : Prop := forall x, foot r x -> m x = m' x.

Lemma set_mem_agree r m m' x v : agree r m m' -> agree r (set_mem m x v) (set_mem m' x v).
Proof. intros A y F. unfold set_mem, set_nat. destruct (Nat.eqb y x); [reflexivity|now apply A]. Qed.

Lemma eval_agree r P b : within (reads r) (writes r) P b -> forall m m', agree r m m' ->
  agree r (fst (eval b m)) (fst (eval b m')) /\ snd (eval b m) = snd (eval b m').
Proof.
  induction 1 as [|x k F W IH|x v k F W IH|q k T W IH]; intros m m' A; cbn [eval].
  - auto.
  - rewrite (A x F). apply IH, A.
  - apply IH. now apply set_mem_agree.
  - destruct (IH _ _ A) as (I1 & I2). cbn [fst snd]. rewrite I2. auto.
Qed.

(** The effect of reactions that ended in the order of the list, latest first. *)
Fixpoint base (m0 : memory) (d : list reaction) : memory :=
  match d with
  | [] => m0
  | r :: d => fun x => if writes r x then fst (eval (prog r) (base m0 d)) x else base m0 d x
  end.
Definition triggers (m0 : memory) (d : list reaction) (r : reaction) : list reaction := snd (eval (prog r) (base m0 d)).
Definition caused (m0 : memory) (d : list reaction) (r : reaction) : Prop := exists a q b, d = a ++ q :: b /\ In r (triggers m0 b q).

Fixpoint ordered (d : list reaction) : Prop :=
  match d with [] => True | r :: d => ~ In r d /\ (forall q, In q d -> conf q r -> (lvl q < lvl r)%nat) /\ ordered d end.

Definition tag_list (m0 : memory) (g0 : list reaction) (ts : list reaction) (m : memory) (d : list reaction) : Prop :=
  ordered d /\ NoDup ts /\ (forall r, In r ts <-> In r d) /\ (forall r, In r d <-> In r g0 \/ caused m0 d r) /\ (forall x, m x = base m0 d x).

(** *** The order does not matter. *)
Lemma conf_sym q r : conf q r -> conf r q.
Proof. intros (x & H). exists x. tauto. Qed.
Lemma conf_write q r x : writes q x = true -> foot r x -> conf q r.
Proof. intros W F. exists x. left. split; [exact W|exact F]. Qed.

Lemma triggers_up m0 d r q : In q (triggers m0 d r) -> (lvl r < lvl q)%nat.
Proof.
  unfold triggers. pose proof (lp_body _ _ _ _ LP r) as W. generalize (base m0 d). revert W. generalize (prog r) as b.
  induction 1 as [|x k F W IH|x v k F W IH|p k T W IH]; intros m; cbn [eval snd]; [intros []|apply IH|apply IH|].
  intros [<-|H]; [exact T|exact (IH _ H)].
Qed.

(** The value of a location is what the last writer in the list made of it. *)
Lemma base_find m0 d x :
  (exists a q b, d = a ++ q :: b /\ writes q x = true /\ (forall p, In p a -> writes p x = false) /\ base m0 d x = fst (eval (prog q) (base m0 b)) x) \/
  ((forall p, In p d -> writes p x = false) /\ base m0 d x = m0 x).
Proof.
  induction d as [|r d IH]; [right; split; [intros p []|reflexivity]|]. cbn [base]. destruct (writes r x) eqn:W.
  - left. exists [], r, d. split; [reflexivity|]. split; [exact W|]. split; [intros p []|reflexivity].
  - destruct IH as [(a & q & b & -> & H1 & H2 & H3)|(H1 & H2)].
    + left. exists (r :: a), q, b. split; [reflexivity|]. split; [exact H1|]. split; [intros p [<-|H]; auto|exact H3].
    + right. split; [intros p [<-|H]; auto|exact H2].
Qed.

Lemma ordered_app a b : ordered (a ++ b) -> ordered b /\ forall p q, In p a -> In q b -> p <> q /\ (conf q p -> (lvl q < lvl p)%nat).
Proof.
  induction a as [|r a IH]; cbn [app ordered]; intros H; [split; [exact H|intros p q []]|].
  destruct H as (H1 & H2 & H3). destruct (IH H3) as (I1 & I2). split; [exact I1|]. intros p q [<-|Hp] Hq; [|now apply I2].
  split; [intros ->; apply H1, in_or_app; auto|apply H2, in_or_app; auto].
Qed.
Lemma ordered_nodup d : ordered d -> NoDup d.
Proof. induction d as [|r d IH]; cbn; intros H; [constructor|]. destruct H as (H1 & _ & H3). constructor; auto. Qed.

(** Position of two conflicting members of an ordered list: the lower level is below. *)
Lemma below d a r b q : ordered d -> d = a ++ r :: b -> In q d -> conf q r -> (lvl q < lvl r)%nat -> In q b.
Proof.
  intros O -> Hq C L. apply in_app_or in Hq as [Hq|[->|Hq]]; [|lia|exact Hq].
  destruct (ordered_app _ _ O) as (_ & K). destruct (K q r Hq (or_introl eq_refl)) as (_ & K2). specialize (K2 (conf_sym _ _ C)). lia.
Qed.

Section Two.
Variables (m0 m0' : memory) (g0 g0' d d' : list reaction).
Hypothesis Em : forall x, m0 x = m0' x.
Hypothesis Eg : forall r, In r g0 <-> In r g0'.
Hypothesis O : ordered d.
Hypothesis O' : ordered d'.
Hypothesis C : forall r, In r d <-> In r g0 \/ caused m0 d r.
Hypothesis C' : forall r, In r d' <-> In r g0' \/ caused m0' d' r.

(** Both lists have the same members of level below [n], and each member does the same in both. *)
Definition same_at (r : reaction) (b b' : list reaction) : Prop :=
  agree r (base m0 b) (base m0' b').

Lemma value_same (n : nat) (b b' : list reaction) x :
  (forall q, (lvl q < n)%nat -> (In q d <-> In q d')) ->
  (forall q c e c' e', (lvl q < n)%nat -> d = c ++ q :: e -> d' = c' ++ q :: e' -> same_at q e e') ->
  (exists a, d = a ++ b) -> (exists a', d' = a' ++ b') ->
  (forall q, In q b -> writes q x = true -> (lvl q < n)%nat) -> (forall q, In q b' -> writes q x = true -> (lvl q < n)%nat) ->
  (forall q, In q d -> (lvl q < n)%nat -> writes q x = true -> In q b) -> (forall q, In q d' -> (lvl q < n)%nat -> writes q x = true -> In q b') ->
  base m0 b x = base m0' b' x.
Proof.
  intros S V (a & D) (a' & D') B B' A A'.
  assert (Ob : ordered b) by (rewrite D in O; apply (ordered_app _ _ O)).
  assert (Ob' : ordered b') by (rewrite D' in O'; apply (ordered_app _ _ O')).
  destruct (base_find m0 b x) as [(c & q & e & Eb & W & N & F)|(N & F)]; destruct (base_find m0' b' x) as [(c' & q' & e' & Eb' & W' & N' & F')|(N' & F')].
  - assert (Q : (lvl q < n)%nat) by (apply B; [rewrite Eb; apply in_elt|exact W]).
    assert (Q' : (lvl q' < n)%nat) by (apply B'; [rewrite Eb'; apply in_elt|exact W']).
    assert (q = q') as <-.
    { destruct (Nat.eq_dec q q') as [E|Ne]; [exact E|exfalso].
      assert (K : conf q q') by (apply (conf_write q q' x W); right; exact W').
      assert (Hq' : In q' e).
      { assert (In q' b). { apply A; [|exact Q'|exact W']. apply S; [exact Q'|]. rewrite D', Eb'. apply in_or_app. right. apply in_elt. }
        rewrite Eb in H. apply in_app_or in H as [H|[H|H]]; [rewrite (N _ H) in W'; discriminate|contradiction|exact H]. }
      assert (Hq : In q e').
      { assert (In q b'). { apply A'; [|exact Q|exact W]. apply S; [exact Q|]. rewrite D, Eb. apply in_or_app. right. apply in_elt. }
        rewrite Eb' in H. apply in_app_or in H as [H|[H|H]]; [rewrite (N' _ H) in W; discriminate|subst; contradiction|exact H]. }
      rewrite Eb in Ob. rewrite Eb' in Ob'. destruct (ordered_app _ _ Ob) as ((_ & L & _) & _). destruct (ordered_app _ _ Ob') as ((_ & L' & _) & _).
      specialize (L q' Hq' (conf_sym _ _ K)). specialize (L' q Hq K). lia. }
    assert (G : same_at q e e'). { apply (V q (a ++ c) e (a' ++ c') e' Q); [rewrite D, Eb|rewrite D', Eb']; now rewrite app_assoc. }
    rewrite F, F'. apply (eval_agree q _ _ (lp_body _ _ _ _ LP q) _ _ G). right. exact W.
  - exfalso. assert (Q : (lvl q < n)%nat) by (apply B; [rewrite Eb; apply in_elt|exact W]).
    assert (In q b'). { apply A'; [|exact Q|exact W]. apply S; [exact Q|]. rewrite D, Eb. apply in_or_app. right. apply in_elt. }
    rewrite (N' _ H) in W. discriminate.
  - exfalso. assert (Q' : (lvl q' < n)%nat) by (apply B'; [rewrite Eb'; apply in_elt|exact W']).
    assert (In q' b). { apply A; [|exact Q'|exact W']. apply S; [exact Q'|]. rewrite D', Eb'. apply in_or_app. right. apply in_elt. }
    rewrite (N _ H) in W'. discriminate.
  - rewrite F, F'. apply Em.
Qed.

Lemma levels_same n :
  (forall q, (lvl q < n)%nat -> (In q d <-> In q d')) /\
  (forall q c e c' e', (lvl q < n)%nat -> d = c ++ q :: e -> d' = c' ++ q :: e' -> same_at q e e').
Proof.
  induction n as [|n (Sm & V)]; [split; intros; lia|].
  assert (S1 : forall q, (lvl q < S n)%nat -> (In q d <-> In q d')).
  { intros q L. rewrite C, C', Eg. split; intros [H|H]; auto; right.
    - destruct H as (c & p & e & D & H). pose proof (triggers_up _ _ _ _ H) as U.
      assert (Hp : In p d') by (apply Sm; [lia|rewrite D; apply in_elt]). apply in_split in Hp as (c' & e' & D'). exists c', p, e'. split; [exact D'|].
      unfold triggers in *. rewrite <- (proj2 (eval_agree p _ _ (lp_body _ _ _ _ LP p) _ _ (V p c e c' e' ltac:(lia) D D'))). exact H.
    - destruct H as (c' & p & e' & D' & H). pose proof (triggers_up _ _ _ _ H) as U.
      assert (Hp : In p d) by (apply Sm; [lia|rewrite D'; apply in_elt]). apply in_split in Hp as (c & e & D). exists c, p, e. split; [exact D|].
      unfold triggers in *. rewrite (proj2 (eval_agree p _ _ (lp_body _ _ _ _ LP p) _ _ (V p c e c' e' ltac:(lia) D D'))). exact H. }
  split; [exact S1|]. intros q c e c' e' L D D' x F.
  assert (K : forall p, writes p x = true -> conf p q) by (intros p W; exact (conf_write p q x W F)).
  assert (B : forall p f, ordered (q :: f) -> In p f -> writes p x = true -> (lvl p < lvl q)%nat) by (intros p f (_ & H & _) Hp W; exact (H p Hp (K p W))).
  assert (Oq : ordered (q :: e)) by (rewrite D in O; apply (ordered_app _ _ O)).
  assert (Oq' : ordered (q :: e')) by (rewrite D' in O'; apply (ordered_app _ _ O')).
  apply (value_same (lvl q)).
  - intros p Hp. apply Sm. lia.
  - intros p f g f' g' Hp. apply V. lia.
  - exists (c ++ [q]). rewrite D. now rewrite <- app_assoc.
  - exists (c' ++ [q]). rewrite D'. now rewrite <- app_assoc.
  - intros p Hp W. exact (B p e Oq Hp W).
  - intros p Hp W. exact (B p e' Oq' Hp W).
  - intros p Hp L' W. exact (below d c q e p O D Hp (K p W) L').
  - intros p Hp L' W. exact (below d' c' q e' p O' D' Hp (K p W) L').
Qed.

Lemma lists_same : (forall q, In q d <-> In q d') /\ forall x, base m0 d x = base m0' d' x.
Proof.
  split; [intros q; apply (proj1 (levels_same (S (lvl q)))); lia|]. intros x.
  set (n := S (list_max (map lvl (d ++ d')))).
  assert (M : forall q, In q (d ++ d') -> (lvl q < n)%nat).
  { intros q Hq. pose proof (proj1 (list_max_le (map lvl (d ++ d')) _) (le_n _)) as F. rewrite Forall_forall in F. specialize (F (lvl q) (in_map lvl _ _ Hq)). unfold n. lia. }
  destruct (levels_same n) as (Sm & V). apply (value_same n); auto; try (exists []; reflexivity); intros q Hq _; apply M, in_or_app; auto.
Qed.
End Two.

(** *** One execution. *)
(** The reactions taken and triggered in the current tag, those that ended, those that run. *)
Record ghost := mkGhost { gT : list reaction; gG : list reaction; gD : list reaction; gB : nat -> option reaction }.
Definition gstep (g : ghost) (e : event) : ghost :=
  match e with
  | Take w r => mkGhost (r :: gT g) (gG g) (gD g) (set_nat (gB g) w (Some r))
  | Trigger w r => mkGhost (gT g) (r :: gG g) (gD g) (gB g)
  | Done w => mkGhost (gT g) (gG g) (match gB g w with Some r => r :: gD g | None => gD g end) (set_nat (gB g) w None)
  | NextLevel => g
  | NextTag rs => mkGhost [] rs [] (gB g)
  end.
(** What is required of a scheduler. *)
Definition orderly (g : ghost) (e : event) : Prop :=
  match e with
  | Take w r => gB g w = None /\ In r (gG g) /\ ~ In r (gT g) /\ forall q, In q (gT g) -> conf q r -> In q (gD g) /\ (lvl q < lvl r)%nat
  | Trigger w r => gB g w <> None
  | Done w => gB g w <> None
  | NextLevel => True
  | NextTag rs => (forall w, gB g w = None) /\ incl (gG g) (gT g)
  end.
Fixpoint orderly_run (g : ghost) (es : list event) : Prop :=
  match es with [] => True | e :: es => orderly g e /\ orderly_run (gstep g e) es end.

Record inv (m0 : memory) (g0 : list reaction) (g : ghost) (m : machine) : Prop := {
  v_code : forall w, code m w = None <-> gB g w = None;
  v_run : forall w r c, gB g w = Some r -> code m w = Some c ->
    within (reads r) (writes r) (fun q => (lvl r < lvl q)%nat) c /\
    agree r (fst (eval c (mem m))) (fst (eval (prog r) (base m0 (gD g)))) /\
    exists t, t ++ snd (eval c (mem m)) = triggers m0 (gD g) r /\ incl t (gG g);
  v_mem : forall x, (forall w r, gB g w = Some r -> writes r x = false) -> mem m x = base m0 (gD g) x;
  v_ord : ordered (gD g);
  v_taken : forall r, In r (gT g) <-> In r (gD g) \/ exists w, gB g w = Some r;
  v_nodup : NoDup (gT g);
  v_apart : forall w v q r, gB g w = Some q -> gB g v = Some r -> w <> v -> q <> r /\ ~ conf q r;
  v_new : forall w r, gB g w = Some r -> ~ In r (gD g) /\ forall q, In q (gD g) -> conf q r -> (lvl q < lvl r)%nat;
  v_why : forall r, In r (gG g) -> In r g0 \/ caused m0 (gD g) r \/ exists w q, gB g w = Some q /\ In r (triggers m0 (gD g) q);
  v_all : forall r, In r g0 \/ caused m0 (gD g) r -> In r (gG g);
  v_sub : incl (gT g) (gG g) }.

Lemma base_done m0 d r q : ~ conf r q -> agree q (base m0 (r :: d)) (base m0 d).
Proof.
  intros N x F. cbn [base]. destruct (writes r x) eqn:W; [|reflexivity]. destruct N. exact (conf_write r q x W F).
Qed.
Lemma triggers_done m0 d r q : ~ conf r q -> triggers m0 (r :: d) q = triggers m0 d q.
Proof. intros N. unfold triggers. apply (eval_agree q _ _ (lp_body _ _ _ _ LP q)). now apply base_done. Qed.
Lemma caused_cons m0 d r q : caused m0 (r :: d) q <-> caused m0 d q \/ In q (triggers m0 d r).
Proof.
  split.
  - intros (a & p & b & E & H). destruct a as [|y a]; cbn in E; injection E as -> ->; [now right|left]. exists a, p, b. auto.
  - intros [(a & p & b & -> & H)|H]; [exists (r :: a), p, b; auto|exists [], r, d; auto].
Qed.

Lemma set_other {A} (f : nat -> option A) w v o a : set_nat f w o v = Some a -> (v = w /\ o = Some a) \/ (v <> w /\ f v = Some a).
Proof. unfold set_nat. destruct (Nat.eqb_spec v w); auto. Qed.

Lemma inv_start m0 g0 : inv m0 g0 (mkGhost [] g0 [] (fun _ => None)) (started m0).
Proof.
  constructor; cbn; try easy.
  - intros r. split; [easy|intros [[]|(w & H)]; discriminate].
  - constructor.
  - auto.
  - intros r [H|(a & q & b & E & _)]; [exact H|destruct a; discriminate].
Qed.

Definition quiet (e : action) : Prop := match e with Sched (NextTag _) => False | _ => True end.
Definition ghost_after (g : ghost) (a : action) : ghost := match a with Sched e => gstep g e | Access _ => g end.

Lemma inv_access m0 g0 g m w m' : inv m0 g0 g m -> play_step prog boundary m (Access w) = Some m' -> inv m0 g0 g m'.
Proof.
  intros I H. cbn in H. destruct (code m w) as [c|] eqn:Ec; [|discriminate].
  destruct (gB g w) as [r|] eqn:Eb; [|apply (v_code _ _ _ _ I) in Eb; congruence].
  destruct (v_run _ _ _ _ I w r c Eb Ec) as (W & A & t & T & S).
  destruct c as [|x k|x v k|q k]; try discriminate; injection H as <-; inversion W; subst; cbn [eval] in A, T.
  - constructor; cbn [mem code]; try apply I.
    + intros v. unfold set_nat. destruct (Nat.eqb_spec v w) as [->|]; [rewrite Eb; split; discriminate|apply (v_code _ _ _ _ I)].
    + intros v q c Hb Hc. apply set_other in Hc as [(-> & Hc)|(Ne & Hc)]; [|now apply (v_run _ _ _ _ I v)].
      injection Hc as <-. rewrite Eb in Hb. injection Hb as <-. split; [auto|]. split; [exact A|]. exists t. auto.
  - assert (Hx : forall u q, gB g u = Some q -> u <> w -> ~ foot q x).
    { intros u q Hu Ne F. destruct (v_apart _ _ _ _ I w u r q Eb Hu (not_eq_sym Ne)) as (_ & N). apply N. now apply (conf_write r q x). }
    constructor; cbn [mem code]; try apply I.
    + intros u. unfold set_nat. destruct (Nat.eqb_spec u w) as [->|]; [rewrite Eb; split; discriminate|apply (v_code _ _ _ _ I)].
    + intros u q c Hb Hc. apply set_other in Hc as [(-> & Hc)|(Ne & Hc)].
      * injection Hc as <-. rewrite Eb in Hb. injection Hb as <-. split; [auto|]. split; [exact A|]. exists t. auto.
      * destruct (v_run _ _ _ _ I u q c Hb Hc) as (W2 & A2 & t2 & T2 & S2). split; [exact W2|].
        assert (G : agree q (mem m) (set_mem (mem m) x v)). { intros y F. unfold set_mem, set_nat. destruct (Nat.eqb_spec y x) as [->|]; [|reflexivity]. destruct (Hx u q Hb Ne F). }
        destruct (eval_agree q _ _ W2 _ _ G) as (K1 & K2). split; [intros y F; rewrite <- (K1 y F); now apply A2|]. exists t2. now rewrite <- K2.
    + intros y Hy. unfold set_mem, set_nat. destruct (Nat.eqb_spec y x) as [->|]; [|now apply (v_mem _ _ _ _ I)].
      specialize (Hy w r Eb). congruence.
Qed.

Lemma inv_sched m0 g0 g m e m' : inv m0 g0 g m -> quiet (Sched e) -> orderly g e -> play_step prog boundary m (Sched e) = Some m' -> inv m0 g0 (gstep g e) m'.
Proof.
  intros I Qt O H. destruct e as [w q|w r|w| |rs]; cbn in H, O.
  - (* Trigger *)
    destruct (code m w) as [[|x k|x v k|p k]|] eqn:Ec; try discriminate. destruct (Nat.eqb_spec p q) as [->|]; [|discriminate]. injection H as <-.
    destruct (gB g w) as [r|] eqn:Eb; [|contradiction].
    destruct (v_run _ _ _ _ I w r _ Eb Ec) as (W & A & t & T & S). inversion W; subst. cbn [eval fst snd] in A, T.
    constructor; cbn [mem code gstep gT gG gD gB]; try apply I.
    + intros v. unfold set_nat. destruct (Nat.eqb_spec v w) as [->|]; [rewrite Eb; split; discriminate|apply (v_code _ _ _ _ I)].
    + intros v p c Hb Hc. apply set_other in Hc as [(-> & Hc)|(Ne & Hc)].
      * injection Hc as <-. rewrite Eb in Hb. injection Hb as <-. split; [auto|]. split; [exact A|]. exists (t ++ [q]). split; [now rewrite <- app_assoc|].
        intros y Hy. apply in_app_or in Hy as [Hy|[<-|[]]]; [right; now apply S|now left].
      * destruct (v_run _ _ _ _ I v p c Hb Hc) as (W2 & A2 & t2 & T2 & S2). split; [exact W2|]. split; [exact A2|]. exists t2. split; [exact T2|]. intros y Hy. right. now apply S2.
    + intros y [<-|Hy]; [|now apply (v_why _ _ _ _ I)]. right. right. exists w, r. split; [exact Eb|]. rewrite <- T. apply in_or_app. right. now left.
    + intros y Hy. right. now apply (v_all _ _ _ _ I).
    + intros y Hy. right. now apply (v_sub _ _ _ _ I).
  - (* Take *)
    destruct (code m w) as [c|] eqn:Ec; [discriminate|]. injection H as <-. destruct O as (Eb & Og & Ot & Oc).
    assert (Nc : forall v q, gB g v = Some q -> q <> r /\ ~ conf q r /\ ~ conf r q).
    { intros v q Hv. assert (Hq : In q (gT g)) by (apply (v_taken _ _ _ _ I); right; eauto). split; [intros ->; contradiction|].
      assert (K : ~ conf q r) by (intros K; destruct (Oc q Hq K) as (K1 & _); now apply (v_new _ _ _ _ I v q Hv)). split; [exact K|]. intros K2. apply K, conf_sym, K2. }
    assert (Am : agree r (mem m) (base m0 (gD g))).
    { intros x F. apply (v_mem _ _ _ _ I). intros v q Hv. destruct (writes q x) eqn:Wq; [|reflexivity]. destruct (Nc v q Hv) as (_ & N & _). destruct N. now apply (conf_write q r x). }
    destruct (eval_agree r _ _ (lp_body _ _ _ _ LP r) _ _ Am) as (E1 & E2).
    constructor; cbn [mem code gstep gT gG gD gB]; try apply I.
    + intros v. unfold set_nat. destruct (Nat.eqb_spec v w) as [->|]; [split; discriminate|apply (v_code _ _ _ _ I)].
    + intros v p c Hb Hc. apply set_other in Hb as [(-> & Hb)|(Ne & Hb)].
      * injection Hb as <-. rewrite set_nat_eq in Hc. injection Hc as <-. split; [apply LP|]. split; [exact E1|]. exists []. split; [exact E2|easy].
      * rewrite set_nat_neq in Hc by exact Ne. now apply (v_run _ _ _ _ I v).
    + intros x Hx. apply (v_mem _ _ _ _ I). intros v q Hv. apply (Hx v). rewrite set_nat_neq; [exact Hv|]. intros ->. congruence.
    + intros y. split.
      * intros [<-|Hy]; [right; exists w; apply set_nat_eq|]. apply (v_taken _ _ _ _ I) in Hy as [Hy|(v & Hy)]; [now left|right]. exists v. rewrite set_nat_neq; [exact Hy|]. intros ->. congruence.
      * intros [Hy|(v & Hy)]; [right; apply (v_taken _ _ _ _ I); now left|]. apply set_other in Hy as [(-> & Hy)|(Ne & Hy)]; [injection Hy as <-; now left|].
        right. apply (v_taken _ _ _ _ I). right. eauto.
    + constructor; [exact Ot|apply I].
    + intros u v p q Hu Hv Ne. apply set_other in Hu as [(-> & Hu)|(Nu & Hu)]; apply set_other in Hv as [(-> & Hv)|(Nv & Hv)]; [contradiction| | |now apply (v_apart _ _ _ _ I u v)].
      * injection Hu as <-. destruct (Nc v q Hv) as (K1 & K2 & K3). split; [now apply not_eq_sym|exact K3].
      * injection Hv as <-. destruct (Nc u p Hu) as (K1 & K2 & K3). auto.
    + intros v p Hv. apply set_other in Hv as [(-> & Hv)|(Nv & Hv)]; [|now apply (v_new _ _ _ _ I v)]. injection Hv as <-. split.
      * intros K. apply Ot, (v_taken _ _ _ _ I). now left.
      * intros q Hq K. apply (Oc q); [apply (v_taken _ _ _ _ I); now left|exact K].
    + intros y Hy. destruct (v_why _ _ _ _ I y Hy) as [K|[K|(v & q & K1 & K2)]]; auto. right. right. exists v, q. split; [|exact K2]. rewrite set_nat_neq; [exact K1|]. intros ->. congruence.
    + intros y [<-|Hy]; [exact Og|now apply (v_sub _ _ _ _ I)].
  - (* Done *)
    destruct (code m w) as [[|x k|x v k|p k]|] eqn:Ec; try discriminate. injection H as <-.
    destruct (gB g w) as [r|] eqn:Eb; [|contradiction]. clear O.
    destruct (v_run _ _ _ _ I w r _ Eb Ec) as (W & A & t & T & S). cbn [eval fst snd] in A, T. rewrite app_nil_r in T. subst t.
    destruct (v_new _ _ _ _ I w r Eb) as (Nd & Lo).
    assert (Nc : forall v q, gB g v = Some q -> v <> w -> ~ conf r q). { intros v q Hv Ne. apply (v_apart _ _ _ _ I w v r q Eb Hv). now apply not_eq_sym. }
    constructor; cbn [mem code gstep gT gG gD gB]; rewrite ?Eb; try apply I.
    + intros v. unfold set_nat. destruct (Nat.eqb_spec v w) as [->|]; [tauto|apply (v_code _ _ _ _ I)].
    + intros v q c Hb Hc. apply set_other in Hb as [(-> & Hb)|(Ne & Hb)]; [discriminate|]. rewrite set_nat_neq in Hc by exact Ne.
      destruct (v_run _ _ _ _ I v q c Hb Hc) as (W2 & A2 & t2 & T2 & S2). split; [exact W2|].
      pose proof (base_done m0 (gD g) r q (Nc v q Hb Ne)) as B. destruct (eval_agree q _ _ (lp_body _ _ _ _ LP q) _ _ B) as (B1 & B2).
      split; [intros y F; rewrite (B1 y F); now apply A2|]. exists t2. split; [|exact S2]. rewrite T2. unfold triggers. now rewrite B2.
    + intros x Hx. cbn [base]. destruct (writes r x) eqn:Wr; [apply A; now right|]. apply (v_mem _ _ _ _ I). intros v q Hv.
      destruct (Nat.eq_dec v w) as [->|Ne]; [congruence|]. apply (Hx v). now rewrite set_nat_neq.
    + cbn [ordered]. split; [exact Nd|]. split; [exact Lo|apply I].
    + intros y. rewrite (v_taken _ _ _ _ I). split.
      * intros [Hy|(v & Hy)]; [left; now right|]. destruct (Nat.eq_dec v w) as [->|Ne]; [left; left; congruence|right; exists v; now rewrite set_nat_neq].
      * intros [[<-|Hy]|(v & Hy)]; [right; eauto|now left|]. apply set_other in Hy as [(-> & Hy)|(Ne & Hy)]; [discriminate|right; eauto].
    + intros u v p q Hu Hv Ne. apply set_other in Hu as [(-> & Hu)|(Nu & Hu)]; [discriminate|]. apply set_other in Hv as [(-> & Hv)|(Nv & Hv)]; [discriminate|].
      now apply (v_apart _ _ _ _ I u v).
    + intros v q Hv. apply set_other in Hv as [(-> & Hv)|(Ne & Hv)]; [discriminate|]. destruct (v_new _ _ _ _ I v q Hv) as (K1 & K2). split.
      * intros [<-|K]; [|contradiction]. destruct (v_apart _ _ _ _ I v w r r Hv Eb Ne). contradiction.
      * intros p [<-|Hp] K; [destruct (Nc v q Hv Ne K)|now apply K2].
    + intros y Hy. rewrite caused_cons. destruct (v_why _ _ _ _ I y Hy) as [K|[K|(v & q & K1 & K2)]]; auto. destruct (Nat.eq_dec v w) as [->|Ne].
      * right. left. right. congruence.
      * right. right. exists v, q. rewrite set_nat_neq by exact Ne. split; [exact K1|]. rewrite triggers_done; [exact K2|]. now apply (Nc v).
    + intros y. rewrite caused_cons. intros [K|[K|K]]; [apply (v_all _ _ _ _ I); now left|apply (v_all _ _ _ _ I); now right|now apply S].
  - (* NextLevel *) injection H as <-. exact I.
  - destruct Qt.
Qed.

Fixpoint history_ok (m0 : memory) (g0 : list reaction) (h : list tag_result) : Prop :=
  match h with
  | [] => True
  | (ts, m) :: h => (exists d, tag_list m0 g0 ts m d) /\ history_ok (snd (boundary m)) (fst (boundary m)) h
  end.

Lemma tag_end m0 g0 g m : inv m0 g0 g m -> (forall w, gB g w = None) -> incl (gG g) (gT g) -> tag_list m0 g0 (gT g) (mem m) (gD g).
Proof.
  intros I N G. assert (K : forall r, In r (gT g) <-> In r (gD g)).
  { intros r. rewrite (v_taken _ _ _ _ I). split; [intros [H|(w & H)]; [exact H|congruence]|auto]. }
  split; [apply I|]. split; [apply I|]. split; [exact K|]. split.
  - intros r. rewrite <- K. split.
    + intros H. apply (v_sub _ _ _ _ I) in H. destruct (v_why _ _ _ _ I r H) as [Q|[Q|(w & q & Q & _)]]; auto. congruence.
    + intros H. apply G, (v_all _ _ _ _ I), H.
  - intros x. apply (v_mem _ _ _ _ I). intros w r H. congruence.
Qed.

Lemma inv_tag m0 g0 g m rs m1 : inv m0 g0 g m -> (forall w, gB g w = None) -> 
  inv m1 rs (mkGhost [] rs [] (gB g)) (mkMachine m1 (code m)).
Proof.
  intros I N. constructor; cbn [gT gG gD gB mem code].
  - apply I.
  - intros w r c H. congruence.
  - intros x _. reflexivity.
  - exact Logic.I.
  - intros r. split; [intros []|intros [[]|(w & H)]; congruence].
  - constructor.
  - intros w v q r H. congruence.
  - intros w r H. congruence.
  - auto.
  - intros r [H|(a & q & b & E & _)]; [exact H|destruct a; discriminate].
  - intros r [].
Qed.

Lemma play_history l : forall m0 g0 g m m' h, inv m0 g0 g m -> orderly_run g (scheduled l) -> play prog boundary m (gT g) l = Some (m', h) -> history_ok m0 g0 h.
Proof.
  induction l as [|a l IH]; intros m0 g0 g m m' h I O H; cbn [play] in H; [injection H as <- <-; exact Logic.I|].
  destruct (play_step prog boundary m a) as [m1|] eqn:E; [|discriminate].
  destruct a as [e|w]; [|cbn in O; apply (IH m0 g0 g m1 m' h); [now apply (inv_access _ _ _ _ w _ I)|exact O|exact H]].
  cbn [scheduled flat_map app orderly_run] in O. destruct O as (O1 & O2).
  destruct e as [w q|w r|w| |rs].
  - apply (IH m0 g0 (gstep g (Trigger w q)) m1 m' h); [apply (inv_sched _ _ _ _ _ _ I); easy|exact O2|exact H].
  - apply (IH m0 g0 (gstep g (Take w r)) m1 m' h); [apply (inv_sched _ _ _ _ _ _ I); easy|exact O2|exact H].
  - apply (IH m0 g0 (gstep g (Done w)) m1 m' h); [apply (inv_sched _ _ _ _ _ _ I); easy|exact O2|exact H].
  - apply (IH m0 g0 (gstep g NextLevel) m1 m' h); [apply (inv_sched _ _ _ _ _ _ I); easy|exact O2|exact H].
  - destruct (play prog boundary m1 [] l) as [(m2 & h2)|] eqn:P; [|discriminate]. injection H as <- <-. destruct O1 as (N & G).
    cbn in E. destruct (list_eq_dec Nat.eq_dec rs (fst (boundary (mem m)))) as [->|]; [|discriminate]. injection E as <-.
    cbn [history_ok]. split; [exists (gD g); now apply tag_end|].
    apply (IH _ _ (gstep g (NextTag (fst (boundary (mem m))))) (mkMachine (snd (boundary (mem m))) (code m)) m2 h2); [cbn [gstep]; exact (inv_tag _ _ _ _ _ _ I N)|exact O2|exact P].
Qed.

Lemma histories_same (X : extensional boundary) : forall h h' m0 m0' g0 g0',
  (forall x, m0 x = m0' x) -> (forall r, In r g0 <-> In r g0') -> history_ok m0 g0 h -> history_ok m0' g0' h' -> same_history h h'.
Proof.
  induction h as [|(ts & m) h IH]; intros h' m0 m0' g0 g0' Em Eg H H'; [intros k a b Ha; destruct k; discriminate|].
  destruct h' as [|(ts' & m') h']; [intros k a b _ Hb; destruct k; discriminate|]. cbn [history_ok] in H, H'.
  destruct H as ((d & O1 & N1 & S1 & C1 & M1) & H). destruct H' as ((d' & O2 & N2 & S2 & C2 & M2) & H').
  destruct (lists_same m0 m0' g0 g0' d d' Em Eg O1 O2 C1 C2) as (L1 & L2).
  assert (Emm : forall x, m x = m' x) by (intros x; rewrite M1, M2; apply L2).
  destruct (X m m' Emm) as (X1 & X2). intros [|k] a b Ha Hb.
  - injection Ha as <-. injection Hb as <-. split; [exact N1|]. split; [exact N2|]. split; [|exact Emm]. intros r. cbn [fst]. now rewrite S1, S2.
  - apply (IH h' (snd (boundary m)) (snd (boundary m')) (fst (boundary m)) (fst (boundary m')) X2) with (k := k); [rewrite X1; tauto|exact H|exact H'|exact Ha|exact Hb].
Qed.

Theorem orderly_same (X : extensional boundary) ts ts' m0 m0' l l' m m' h h' :
  (forall x, m0 x = m0' x) -> (forall r, In r ts <-> In r ts') ->
  orderly_run (mkGhost [] ts [] (fun _ => None)) (scheduled l) -> orderly_run (mkGhost [] ts' [] (fun _ => None)) (scheduled l') ->
  play prog boundary (started m0) [] l = Some (m, h) -> play prog boundary (started m0') [] l' = Some (m', h') -> same_history h h'.
Proof.
  intros Em Eg O O' P P'. apply (histories_same X h h' m0 m0' ts ts' Em Eg).
  - exact (play_history l _ _ _ _ _ _ (inv_start m0 ts) O P).
  - exact (play_history l' _ _ _ _ _ _ (inv_start m0' ts') O' P').
Qed.
End Proofs.
