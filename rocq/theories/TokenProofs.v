From Verif Require Import Base Pqueue PqueueProofs Token TokenSpec.
From Coq Require Import Arith.
Open Scope Z_scope.

(** Core invariant: [c] counts the references to each token. *)
Record core (s : tst) (c : nat -> nat) : Prop := mkCore {
  c_ref : forall t k, ts_tok s t = Some k -> ~ In t (ts_bin s) -> tk_ref k = Z.of_nat (c t);
  c_bin : forall t, In t (ts_bin s) -> exists k, ts_tok s t = Some k /\ tk_ref k = 0 /\ tk_val k = None /\ c t = 0%nat;
  c_live : forall t, (0 < c t)%nat -> ts_tok s t <> None;
  c_nodup : NoDup (ts_bin s);
  c_len : (length (ts_bin s) <= BIN_LIMIT)%nat;
  c_fresh : forall t, (ts_fresh s <= t)%nat -> ts_tok s t = None;
  c_val : forall t k p, ts_tok s t = Some k -> tk_val k = Some p ->
          exists d, ts_pay s p = Some d /\ tk_len k = Z.of_nat (length d);
  c_inj : forall t1 t2 k1 k2 p, ts_tok s t1 = Some k1 -> ts_tok s t2 = Some k2 ->
          tk_val k1 = Some p -> tk_val k2 = Some p -> t1 = t2;
  c_pfresh : forall p, (ts_pfresh s <= p)%nat -> ts_pay s p = None
}.

Lemma core_ext s c c' : (forall t, c t = c' t) -> core s c -> core s c'.
Proof.
  intros H I. constructor; try (apply I); intros.
  - rewrite <- H. eapply c_ref; eauto.
  - rewrite <- H. eapply c_bin; eauto.
  - rewrite <- H in H0. eapply c_live; eauto.
Qed.

Lemma mem_In x l : mem x l = true <-> In x l.
Proof.
  unfold mem. rewrite existsb_exists. split.
  - intros (y & Hy & E). apply Nat.eqb_eq in E. subst; assumption.
  - intros H. exists x. split; [exact H|apply Nat.eqb_refl].
Qed.
Lemma mem_nIn x l : mem x l = false <-> ~ In x l.
Proof. rewrite <- mem_In. destruct (mem x l); split; congruence. Qed.

Ltac upd_cases :=
  repeat match goal with
         | H : context [upd _ ?i _ ?j] |- _ =>
             destruct (Nat.eq_dec j i) as [?|?];
             [subst; rewrite upd_eq in H | rewrite (upd_neq _ i _ j) in H by assumption]
         | |- context [upd _ ?i _ ?j] =>
             destruct (Nat.eq_dec j i) as [?|?];
             [subst; rewrite upd_eq | rewrite (upd_neq _ i _ j) by assumption]
         end.

(** Frame: what an operation on token [t] leaves alone. *)
Definition frame (s s' : tst) : Prop :=
  ts_list s' = ts_list s /\ ts_reg s' = ts_reg s /\ (forall i, ts_tmpl s' i = ts_tmpl s i) /\ ts_fresh s' = ts_fresh s /\ ts_pfresh s' = ts_pfresh s.

Lemma frame_refl s : frame s s.
Proof. repeat split; reflexivity. Qed.
Lemma frame_trans a b d : frame a b -> frame b d -> frame a d.
Proof.
  intros (A1 & A2 & A3 & A4 & A5) (B1 & B2 & B3 & B4 & B5). unfold frame.
  rewrite B1, A1, B2, A2, B4, A4, B5, A5. repeat split; trivial. intros i. rewrite B3; apply A3.
Qed.

(** ** free_token_value *)
Lemma free_value_ok s c t k : core s c -> ts_tok s t = Some k ->
  exists s', free_token_value s t = Ok s' /\ core s' c /\ frame s s' /\ ts_bin s' = ts_bin s /\
    ts_tok s' t = Some (with_val k None) /\ (forall u, u <> t -> ts_tok s' u = ts_tok s u) /\
    (forall p, tk_val k = Some p -> ts_pay s' p = None) /\
    (forall p, tk_val k <> Some p -> ts_pay s' p = ts_pay s p).
Proof.
  intros I Ek. unfold free_token_value, get_tok. rewrite Ek. cbn [bind].
  destruct (tk_val k) as [p|] eqn:Ev.
  - destruct (c_val _ _ I _ _ _ Ek Ev) as (d & Ed & _). rewrite Ed.
    eexists. split; [reflexivity|]. split.
    + constructor; unfold set_tok, set_pay; cbn [ts_tok ts_fresh ts_pay ts_pfresh ts_bin ts_list ts_reg ts_tmpl].
      * intros u ku Hu Hb. upd_cases; [injection Hu as <-; cbn; eapply c_ref; eauto|eapply c_ref; eauto].
      * intros u Hu. destruct (c_bin _ _ I _ Hu) as (ku & A & B & C & D). upd_cases.
        -- rewrite Ek in A. injection A as <-. congruence.
        -- exists ku; auto.
      * intros u Hu. upd_cases; [discriminate|]. eapply c_live; eauto.
      * apply I.
      * apply I.
      * intros u Hu. upd_cases; [rewrite (c_fresh _ _ I _ Hu) in Ek; discriminate|apply (c_fresh _ _ I); assumption].
      * intros u ku q Hu Hv. upd_cases.
        all: try (injection Hu as <-; discriminate).
        all: try (exfalso; match goal with N : ?a <> ?b |- _ => apply N; eapply (c_inj _ _ I); eauto; fail end).
        all: eapply (c_val _ _ I); eauto.
      * intros t1 t2 k1 k2 q H1 H2 V1 V2. upd_cases; try (injection H1 as <-; discriminate); try (injection H2 as <-; discriminate).
        eapply (c_inj _ _ I); eauto.
      * intros q Hq. upd_cases; [reflexivity|apply (c_pfresh _ _ I); assumption].
    + unfold set_tok, set_pay, frame; cbn [ts_tok ts_fresh ts_pay ts_pfresh ts_bin ts_list ts_reg ts_tmpl].
      split; [repeat split; reflexivity|]. split; [reflexivity|]. split; [apply upd_eq|].
      split; [intros u Hu; apply upd_neq; exact Hu|].
      split; intros q Hq; [injection Hq as <-; apply upd_eq|apply upd_neq; congruence].
  - exists s. split; [reflexivity|]. split; [exact I|]. split; [apply frame_refl|]. split; [reflexivity|].
    split; [rewrite Ek; f_equal; destruct k; cbn in *; subst; reflexivity|]. split; [reflexivity|]. split; [discriminate|reflexivity].
Qed.

(** ** Counting down *)
Definition dec (c : nat -> nat) (t : nat) : nat -> nat := fun u => if Nat.eqb u t then (c u - 1)%nat else c u.
Definition inc (c : nat -> nat) (t : nat) : nat -> nat := fun u => if Nat.eqb u t then S (c u) else c u.

Lemma core_set_ref s c t k n : core s c -> ts_tok s t = Some k -> ~ In t (ts_bin s) ->
  core (set_tok s t (Some (with_ref k (Z.of_nat n)))) (fun u => if Nat.eqb u t then n else c u).
Proof.
  intros I Ek Hb. constructor; unfold set_tok; cbn [ts_tok ts_fresh ts_pay ts_pfresh ts_bin ts_list ts_reg ts_tmpl]; cbv beta.
  - intros u ku Hu Hbu. destruct (Nat.eqb_spec u t); subst.
    + rewrite upd_eq in Hu. injection Hu as <-. reflexivity.
    + rewrite upd_neq in Hu by assumption. eapply (c_ref _ _ I); eauto.
  - intros u Hu. destruct (Nat.eqb_spec u t); [subst; contradiction|]. rewrite upd_neq by assumption. apply (c_bin _ _ I); assumption.
  - intros u Hu. destruct (Nat.eqb_spec u t); subst; [rewrite upd_eq; discriminate|]. rewrite upd_neq by assumption. apply (c_live _ _ I); assumption.
  - apply I.
  - apply I.
  - intros u Hu. upd_cases; [rewrite (c_fresh _ _ I _ Hu) in Ek; discriminate|apply (c_fresh _ _ I); assumption].
  - intros u ku q Hu Hv. upd_cases; [injection Hu as <-; cbn in Hv |- *; eapply (c_val _ _ I); eauto|eapply (c_val _ _ I); eauto].
  - intros t1 t2 k1 k2 q H1 H2 V1 V2. upd_cases; trivial; try (injection H1 as <-); try (injection H2 as <-); cbn in V1, V2; eapply (c_inj _ _ I); eauto.
  - apply I.
Qed.

(** The result of releasing one reference. *)
Lemma done_using_ok s c t : core s c -> (0 < c t)%nat ->
  exists s', done_using s (Some t) = Ok (s', NOT_FREED) /\ core s' (dec c t) /\ frame s s' /\
    (forall u, u <> t -> ts_tok s' u = ts_tok s u) /\
    (forall u, u <> t -> In u (ts_bin s') <-> In u (ts_bin s)) /\
    (length (ts_bin s') <= S (length (ts_bin s)))%nat /\
    (exists k, ts_tok s t = Some k /\
       ((1 < c t)%nat -> ts_tok s' t = Some (with_ref k (tk_ref k - 1)) /\ ts_bin s' = ts_bin s /\ forall p, ts_pay s' p = ts_pay s p) /\
       (c t = 1%nat -> (forall p, tk_val k = Some p -> ts_pay s' p = None) /\ (forall p, tk_val k <> Some p -> ts_pay s' p = ts_pay s p) /\
          ~ usable s' t /\
          ((length (ts_bin s) < BIN_LIMIT)%nat -> ts_tok s' t = Some (with_val (with_ref k 0) None) /\ ts_bin s' = t :: ts_bin s) /\
          ((BIN_LIMIT <= length (ts_bin s))%nat -> ts_tok s' t = None))).
Proof.
  intros I Hc.
  assert (Hnb : ~ In t (ts_bin s)) by (intros Hb; destruct (c_bin _ _ I _ Hb) as (? & _ & _ & _ & E); lia).
  destruct (ts_tok s t) as [k|] eqn:Ek; [|exfalso; exact (c_live _ _ I _ Hc Ek)].
  pose proof (c_ref _ _ I _ _ Ek Hnb) as Er.
  unfold done_using, get_tok. rewrite Ek. cbn [bind]. replace (tk_ref k =? 0) with false by lia.
  assert (EI : tk_ref k - 1 = Z.of_nat (c t - 1)) by lia.
  pose proof (core_set_ref s c t k (c t - 1) I Ek Hnb) as I1. rewrite <- EI in I1.
  set (s1 := set_tok s t (Some (with_ref k (tk_ref k - 1)))) in *.
  assert (I1' : core s1 (dec c t)).
  { eapply core_ext; [|exact I1]. intros u. unfold dec. cbn. destruct (Nat.eqb_spec u t); subst; reflexivity. }
  assert (Ek1 : ts_tok s1 t = Some (with_ref k (tk_ref k - 1))) by (unfold s1, set_tok; cbn; apply upd_eq).
  unfold free_token, get_tok. rewrite Ek1. cbn [bind]. cbn [with_ref tk_ref].
  destruct (Z.ltb_spec 0 (tk_ref k - 1)) as [Hpos|Hz].
  - exists s1. split; [reflexivity|]. split; [exact I1'|]. split; [unfold s1, frame, set_tok; cbn; repeat split; reflexivity|].
    split; [intros u Hu; unfold s1, set_tok; cbn; apply upd_neq; exact Hu|]. split; [intros u Hu; reflexivity|].
    split; [cbn; lia|]. exists k. split; [reflexivity|]. split; [intros _; split; [exact Ek1|split; reflexivity]|intros E; lia].
  - assert (Ec : c t = 1%nat) by lia.
    destruct (free_value_ok s1 _ t _ I1' Ek1) as (s2 & E2 & I2 & F2 & B2 & T2 & O2 & P2 & Q2). rewrite E2. cbn [bind].
    cbn [with_ref with_val tk_val] in P2, Q2.
    assert (Hd : dec c t t = 0%nat) by (unfold dec; rewrite Nat.eqb_refl; lia).
    assert (Hm : mem t (ts_bin s2) = false) by (apply mem_nIn; rewrite B2; exact Hnb).
    assert (B2' : ts_bin s2 = ts_bin s) by (rewrite B2; reflexivity).
    assert (F1 : frame s s1) by (unfold s1, frame, set_tok; cbn; repeat split; reflexivity).
    assert (Oall : forall u, u <> t -> ts_tok s2 u = ts_tok s u).
    { intros u Hu. rewrite O2 by exact Hu. unfold s1, set_tok; cbn. apply upd_neq; exact Hu. }
    assert (Ez : tk_ref k - 1 = 0) by lia.
    destruct (Nat.ltb_spec (length (ts_bin s2)) BIN_LIMIT) as [Hl|Hl].
    + rewrite Hm. exists (set_bin s2 (t :: ts_bin s2)). split; [reflexivity|]. split.
      * constructor; unfold set_bin; cbn [ts_tok ts_fresh ts_pay ts_pfresh ts_bin ts_list ts_reg ts_tmpl].
        -- intros u ku Hu Hb. eapply (c_ref _ _ I2); eauto. intros Hx; apply Hb; right; exact Hx.
        -- intros u [<-|Hu]; [|apply (c_bin _ _ I2); exact Hu]. eexists. split; [exact T2|]. cbn. split; [lia|]. split; [reflexivity|exact Hd].
        -- apply I2.
        -- constructor; [apply mem_nIn; exact Hm|apply I2].
        -- cbn [length]. lia.
        -- apply I2.
        -- apply I2.
        -- apply I2.
        -- apply I2.
      * split; [|split; [|split; [|split]]].
        -- eapply frame_trans; [exact F1|]. eapply frame_trans; [exact F2|]. unfold frame, set_bin; cbn; repeat split; reflexivity.
        -- exact Oall.
        -- intros u Hu. unfold set_bin; cbn. rewrite B2'. split; [intros [<-|H]; [contradiction|exact H]|intros H; right; exact H].
        -- cbn. rewrite B2'. lia.
        -- exists k. split; [reflexivity|]. split; [intros Hx; lia|]. intros _.
           split; [exact P2|]. split; [intros p Hp; cbn; rewrite Q2 by exact Hp; reflexivity|].
           split; [intros (_ & Hx); apply Hx; left; reflexivity|]. split; [|rewrite <- B2'; intros Hx; lia].
           intros _. split; [cbn; rewrite T2, Ez; reflexivity|cbn; rewrite B2'; reflexivity].
    + exists (set_tok s2 t None). split; [reflexivity|]. split.
      * constructor; unfold set_tok; cbn [ts_tok ts_fresh ts_pay ts_pfresh ts_bin ts_list ts_reg ts_tmpl].
        -- intros u ku Hu Hb. upd_cases; [discriminate|]. eapply (c_ref _ _ I2); eauto.
        -- intros u Hu. upd_cases; [apply mem_nIn in Hm; contradiction|]. apply (c_bin _ _ I2); exact Hu.
        -- intros u Hu. upd_cases; [lia|]. apply (c_live _ _ I2); exact Hu.
        -- apply I2.
        -- apply I2.
        -- intros u Hu. upd_cases; [reflexivity|]. apply (c_fresh _ _ I2); exact Hu.
        -- intros u ku q Hu Hv. upd_cases; [discriminate|]. eapply (c_val _ _ I2); eauto.
        -- intros t1 t2 k1 k2 q H1 H2 V1 V2. upd_cases; try discriminate. eapply (c_inj _ _ I2); eauto.
        -- apply I2.
      * split; [|split; [|split; [|split]]].
        -- eapply frame_trans; [exact F1|]. eapply frame_trans; [exact F2|]. unfold frame, set_tok; cbn; repeat split; reflexivity.
        -- intros u Hu. unfold set_tok; cbn. rewrite upd_neq by exact Hu. apply Oall; exact Hu.
        -- intros u Hu. unfold set_tok; cbn. rewrite B2'. reflexivity.
        -- unfold set_tok; cbn. rewrite B2'. lia.
        -- exists k. split; [reflexivity|]. split; [intros Hx; lia|]. intros _.
           split; [exact P2|]. split; [intros p Hp; cbn; rewrite Q2 by exact Hp; reflexivity|].
           split; [intros (Hx & _); apply Hx; unfold set_tok; cbn; apply upd_eq|]. split; [rewrite <- B2'; intros Hx; lia|].
           intros _. unfold set_tok; cbn. apply upd_eq.
Qed.

(** ** Allocation *)
Definition unowned (s : tst) (p : nat) : Prop := forall t k, ts_tok s t = Some k -> tk_val k <> Some p.
Definition good_val (s : tst) (v : option nat) (len : Z) : Prop :=
  match v with None => True | Some p => (exists d, ts_pay s p = Some d /\ len = Z.of_nat (length d)) /\ unowned s p end.

Lemma alloc_pay_ok s c d : core s c -> let r := alloc_pay s d in
  core (fst r) c /\ ts_pay (fst r) (snd r) = Some d /\ unowned (fst r) (snd r) /\ snd r = ts_pfresh s /\
  (forall p, p <> snd r -> ts_pay (fst r) p = ts_pay s p).
Proof.
  intros I. cbn [alloc_pay fst snd].
  assert (K : forall t k p, ts_tok s t = Some k -> tk_val k = Some p -> p <> ts_pfresh s).
  { intros t k p Ht Hp ->. destruct (c_val _ _ I _ _ _ Ht Hp) as (x & Hx & _). rewrite (c_pfresh _ _ I) in Hx by lia. discriminate. }
  split; [|split; [cbn; apply upd_eq|split; [|split; [reflexivity|intros p Hp; cbn; apply upd_neq; exact Hp]]]].
  - constructor; cbn [ts_tok ts_fresh ts_pay ts_pfresh ts_bin ts_list ts_reg ts_tmpl]; try apply I.
    + intros t k p Ht Hp. rewrite upd_neq by (eapply K; eauto). eapply (c_val _ _ I); eauto.
    + intros p Hp. rewrite upd_neq by lia. apply (c_pfresh _ _ I). lia.
  - intros t k Ht Hp. eapply K; eauto.
Qed.

Lemma new_token_ok s c i v len : core s c -> good_val s v len ->
  exists s' old, new_token s i v len = Ok (s', next_token s) /\ core s' c /\ c (next_token s) = 0%nat /\
    ts_tok s' (next_token s) = Some (mkTok v len i 0 old) /\ ~ In (next_token s) (ts_bin s') /\
    (forall u, u <> next_token s -> ts_tok s' u = ts_tok s u) /\ (forall u, In u (ts_bin s') -> In u (ts_bin s)) /\
    (forall p, ts_pay s' p = ts_pay s p) /\ ts_list s' = ts_list s /\ ts_reg s' = ts_reg s /\ (forall j, ts_tmpl s' j = ts_tmpl s j) /\
    (ts_fresh s <= ts_fresh s')%nat /\ ts_pfresh s' = ts_pfresh s /\ (length (ts_bin s') <= length (ts_bin s))%nat /\
    ~ usable s (next_token s).
Proof.
  intros I Hv. unfold new_token, next_token. destruct (ts_bin s) as [|t b] eqn:Eb.
  - set (t := ts_fresh s). assert (Et : ts_tok s t = None) by (apply (c_fresh _ _ I); unfold t; lia).
    assert (Ec : c t = 0%nat) by (destruct (c t) eqn:E; [reflexivity|exfalso; apply (c_live _ _ I t); [lia|exact Et]]).
    eexists; exists None. split; [reflexivity|]. split.
    + constructor; cbn [ts_tok ts_fresh ts_pay ts_pfresh ts_bin ts_list ts_reg ts_tmpl]; rewrite ?Eb; try apply I.
      * intros u ku Hu Hb. upd_cases; [injection Hu as <-; cbn; lia|]. apply (c_ref _ _ I); [exact Hu|rewrite Eb; exact Hb].
      * intros u [].
      * intros u Hu. upd_cases; [lia|]. apply (c_live _ _ I); exact Hu.
      * constructor.
      * cbn; lia.
      * intros u Hu. upd_cases; [lia|]. apply (c_fresh _ _ I). lia.
      * intros u ku p Hu Hp. upd_cases; [|eapply (c_val _ _ I); eauto]. injection Hu as <-. cbn in *. subst v. destruct Hv as [Hv _]; exact Hv.
      * intros t1 t2 k1 k2 p H1 H2 V1 V2. upd_cases; trivial.
        all: try (injection H1 as <-; cbn in V1; subst v; destruct Hv as [_ Hv]; exfalso; eapply Hv; eauto; fail).
        all: try (injection H2 as <-; cbn in V2; subst v; destruct Hv as [_ Hv]; exfalso; eapply Hv; eauto; fail).
        all: eapply (c_inj _ _ I); eauto.
    + cbn [ts_tok ts_fresh ts_pay ts_pfresh ts_bin ts_list ts_reg ts_tmpl].
      split; [exact Ec|]. split; [apply upd_eq|]. split; [intros []|]. split; [intros u Hu; apply upd_neq; exact Hu|].
      split; [intros u []|]. split; [reflexivity|]. split; [reflexivity|]. split; [reflexivity|]. split; [reflexivity|]. split; [unfold t; lia|].
      split; [reflexivity|]. split; [cbn; lia|]. intros (Hx & _). apply Hx. exact Et.
  - destruct (c_bin _ _ I t) as (k & Ek & Er & Ev & Ec); [rewrite Eb; left; reflexivity|].
    pose proof (c_nodup _ _ I) as Hnd. rewrite Eb in Hnd. inversion Hnd as [|? ? Hni Hnd']; subst.
    unfold get_tok. rewrite Ek. cbn [bind]. eexists; exists (tk_next k). split; [reflexivity|]. split.
    + constructor; unfold set_tok, set_bin; cbn [ts_tok ts_fresh ts_pay ts_pfresh ts_bin ts_list ts_reg ts_tmpl].
      * intros u ku Hu Hb. upd_cases; [injection Hu as <-; cbn; lia|]. apply (c_ref _ _ I); [exact Hu|rewrite Eb; intros [->|Hx]; contradiction].
      * intros u Hu. upd_cases; [contradiction|]. apply (c_bin _ _ I). rewrite Eb. right; exact Hu.
      * intros u Hu. upd_cases; [lia|]. apply (c_live _ _ I); exact Hu.
      * exact Hnd'.
      * pose proof (c_len _ _ I) as Hl. rewrite Eb in Hl. cbn [length] in Hl. lia.
      * intros u Hu. upd_cases; [rewrite (c_fresh _ _ I _ Hu) in Ek; discriminate|]. apply (c_fresh _ _ I); exact Hu.
      * intros u ku p Hu Hp. upd_cases; [|eapply (c_val _ _ I); eauto]. injection Hu as <-. cbn in *. subst v. destruct Hv as [Hv _]; exact Hv.
      * intros t1 t2 k1 k2 p H1 H2 V1 V2. upd_cases; trivial.
        all: try (injection H1 as <-; cbn in V1; subst v; destruct Hv as [_ Hv]; exfalso; eapply Hv; eauto; fail).
        all: try (injection H2 as <-; cbn in V2; subst v; destruct Hv as [_ Hv]; exfalso; eapply Hv; eauto; fail).
        all: eapply (c_inj _ _ I); eauto.
      * apply I.
    + unfold set_tok, set_bin; cbn [ts_tok ts_fresh ts_pay ts_pfresh ts_bin ts_list ts_reg ts_tmpl].
      split; [exact Ec|]. split; [apply upd_eq|]. split; [exact Hni|]. split; [intros u Hu; apply upd_neq; exact Hu|].
      split; [intros u Hu; right; exact Hu|]. split; [reflexivity|]. split; [reflexivity|]. split; [reflexivity|]. split; [reflexivity|].
      split; [lia|]. split; [reflexivity|]. split; [cbn; lia|]. intros (_ & Hx). apply Hx. rewrite Eb. left; reflexivity.
Qed.

(** Giving a token a value it may own. *)
Lemma core_set_val s c t k p len : core s c -> ts_tok s t = Some k -> ~ In t (ts_bin s) -> good_val s (Some p) len ->
  core (set_tok s t (Some (with_len (with_val k (Some p)) len))) c.
Proof.
  intros I Ek Hb (Hd & Hu). constructor; unfold set_tok; cbn [ts_tok ts_fresh ts_pay ts_pfresh ts_bin ts_list ts_reg ts_tmpl]; try apply I.
  - intros u ku Hx Hbu. upd_cases; [injection Hx as <-; cbn|]; eapply (c_ref _ _ I); eauto.
  - intros u Hx. upd_cases; [contradiction|]. apply (c_bin _ _ I); exact Hx.
  - intros u Hx. upd_cases; [discriminate|]. apply (c_live _ _ I); exact Hx.
  - intros u Hx. upd_cases; [rewrite (c_fresh _ _ I _ Hx) in Ek; discriminate|]. apply (c_fresh _ _ I); exact Hx.
  - intros u ku q Hx Hq. upd_cases; [|eapply (c_val _ _ I); eauto]. injection Hx as <-. cbn in *. injection Hq as <-. exact Hd.
  - intros t1 t2 k1 k2 q H1 H2 V1 V2. upd_cases; trivial.
    all: try (injection H1 as <-; cbn in V1; injection V1 as <-; exfalso; eapply Hu; eauto; fail).
    all: try (injection H2 as <-; cbn in V2; injection V2 as <-; exfalso; eapply Hu; eauto; fail).
    all: eapply (c_inj _ _ I); eauto.
Qed.
Lemma core_set_next s c t k n : core s c -> ts_tok s t = Some k -> core (set_tok s t (Some (with_next k n))) c.
Proof.
  intros I Ek. constructor; unfold set_tok; cbn [ts_tok ts_fresh ts_pay ts_pfresh ts_bin ts_list ts_reg ts_tmpl]; try apply I.
  - intros u ku Hx Hbu. upd_cases; [injection Hx as <-; cbn|]; eapply (c_ref _ _ I); eauto.
  - intros u Hx. destruct (c_bin _ _ I u Hx) as (ku & A & B). upd_cases; [|exists ku; auto]. rewrite Ek in A. injection A as <-.
    eexists. split; [reflexivity|]. exact B.
  - intros u Hx. upd_cases; [discriminate|]. apply (c_live _ _ I); exact Hx.
  - intros u Hx. upd_cases; [rewrite (c_fresh _ _ I _ Hx) in Ek; discriminate|]. apply (c_fresh _ _ I); exact Hx.
  - intros u ku q Hx Hq. upd_cases; [injection Hx as <-; cbn in *|]; eapply (c_val _ _ I); eauto.
  - intros t1 t2 k1 k2 q H1 H2 V1 V2. upd_cases; trivial; try (injection H1 as <-); try (injection H2 as <-); cbn in V1, V2; eapply (c_inj _ _ I); eauto.
Qed.
Lemma core_irrel s s' c : ts_tok s' = ts_tok s -> ts_fresh s' = ts_fresh s -> ts_pay s' = ts_pay s -> ts_pfresh s' = ts_pfresh s ->
  ts_bin s' = ts_bin s -> core s c -> core s' c.
Proof. intros E1 E2 E3 E4 E5 I. constructor; rewrite ?E1, ?E2, ?E3, ?E4, ?E5; apply I. Qed.

(** ** Template counts and the chain of copies *)
Lemma tcount_ext reg f g t : (forall i, In i reg -> f i = g i) -> tcount reg f t = tcount reg g t.
Proof.
  induction reg as [|i r IH]; intros H; [reflexivity|]. cbn [tcount fold_right].
  rewrite (H i) by (left; reflexivity). f_equal. apply IH. intros j Hj; apply H; right; exact Hj.
Qed.
Lemma tcount_upd reg f i o t : NoDup reg -> In i reg ->
  (tcount reg (fun j => if Nat.eqb j i then o else f j) t + has (f i) t = tcount reg f t + has o t)%nat.
Proof.
  induction reg as [|j r IH]; intros Hnd Hin; [destruct Hin|]. inversion Hnd; subst. cbn [tcount fold_right].
  change (fold_right (fun i0 n => (has (f i0) t + n)%nat) 0%nat r) with (tcount r f t).
  change (fold_right (fun i0 n => (has (if Nat.eqb i0 i then o else f i0) t + n)%nat) 0%nat r) with (tcount r (fun j => if Nat.eqb j i then o else f j) t).
  destruct Hin as [->|Hin].
  - rewrite Nat.eqb_refl. rewrite (tcount_ext r (fun j => if Nat.eqb j i then o else f j) f); [lia|].
    intros j Hj. destruct (Nat.eqb_spec j i); [subst; contradiction|reflexivity].
  - destruct (Nat.eqb_spec j i); [subst; contradiction|]. specialize (IH H2 Hin). lia.
Qed.
Lemma tcount_has reg f i t : In i reg -> f i = Some t -> (0 < tcount reg f t)%nat.
Proof.
  induction reg as [|j r IH]; intros Hin Hf; [destruct Hin|]. cbn [tcount fold_right].
  destruct Hin as [->|Hin]; [rewrite Hf; cbn; rewrite Nat.eqb_refl; lia|]. specialize (IH Hin Hf).
  change (fold_right (fun i0 n => (has (f i0) t + n)%nat) 0%nat r) with (tcount r f t). lia.
Qed.
Lemma has_self t : has (Some t) t = 1%nat.
Proof. cbn. rewrite Nat.eqb_refl. reflexivity. Qed.
Lemma has_other a t : a <> t -> has (Some a) t = 0%nat.
Proof. intros H. cbn. destruct (Nat.eqb_spec a t); [contradiction|reflexivity]. Qed.

Lemma tmpl_holders_set s i o t : NoDup (ts_reg s) -> In i (ts_reg s) ->
  (tmpl_holders (tmpl_set_tok s i o) t + has (tp_tok (ts_tmpl s i)) t = tmpl_holders s t + has o t)%nat.
Proof.
  intros Hnd Hi. unfold tmpl_holders, tmpl_set_tok, set_tmpl; cbn [ts_reg ts_tmpl].
  rewrite <- (tcount_upd (ts_reg s) (fun j => tp_tok (ts_tmpl s j)) i o t Hnd Hi). f_equal.
  apply tcount_ext. intros j _. unfold upd. destruct (Nat.eqb_spec j i); reflexivity.
Qed.
Lemma tmpl_holders_frame s s' t : ts_reg s' = ts_reg s -> (forall i, ts_tmpl s' i = ts_tmpl s i) -> tmpl_holders s' t = tmpl_holders s t.
Proof. intros E1 E2. unfold tmpl_holders. rewrite E1. apply tcount_ext. intros i _. rewrite E2. reflexivity. Qed.

Lemma chain_frame h h' o C : chain h o C ->
  (forall t k, In t C -> h t = Some k -> exists k', h' t = Some k' /\ tk_next k' = tk_next k) -> chain h' o C.
Proof.
  induction 1 as [|t k l Ht Hc IH]; intros H; [constructor|].
  destruct (H t k (or_introl eq_refl) Ht) as (k' & Hk & Hn). econstructor; [exact Hk|]. rewrite Hn. apply IH.
  intros u ku Hu. apply H. right; exact Hu.
Qed.
Lemma chain_same h h' o C : chain h o C -> (forall t, In t C -> h' t = h t) -> chain h' o C.
Proof. intros Hc H. eapply chain_frame; [exact Hc|]. intros t k Ht Hk. exists k. rewrite H by exact Ht. auto. Qed.
Lemma chain_in h o C t : chain h o C -> In t C -> exists k, h t = Some k.
Proof. induction 1 as [|u k l Hu Hc IH]; intros H0; [destruct H0|]. destruct H0 as [<-|H0]; [exists k; exact Hu|auto]. Qed.

Record tinv (s : tst) (C E : list nat) : Prop := mkTinv {
  ti_core : core s (holders s C E);
  ti_chain : chain (ts_tok s) (ts_list s) C;
  ti_ndC : NoDup C;
  ti_ndreg : NoDup (ts_reg s);
  ti_unreg : forall i, ~ In i (ts_reg s) -> tp_tok (ts_tmpl s i) = None
}.

Lemma count_in (l : list nat) t : In t l -> (0 < count_occ Nat.eq_dec l t)%nat.
Proof. intros H. apply (count_occ_In Nat.eq_dec) in H. lia. Qed.
Lemma count_not (l : list nat) t : count_occ Nat.eq_dec l t = 0%nat -> ~ In t l.
Proof. intros H Hi. apply count_in in Hi. lia. Qed.
Lemma count_remove1 E t u : In t E -> (count_occ Nat.eq_dec (remove1 t E) u + (if Nat.eqb u t then 1 else 0) = count_occ Nat.eq_dec E u)%nat.
Proof.
  induction E as [|x r IH]; intros H; [destruct H|]. cbn [remove1]. destruct (Nat.eqb_spec x t) as [->|Hx].
  - cbn [count_occ]. destruct (Nat.eq_dec t u) as [->|N]; [rewrite Nat.eqb_refl; lia|]. destruct (Nat.eqb_spec u t); [congruence|lia].
  - destruct H as [->|H]; [congruence|]. specialize (IH H). cbn [count_occ]. destruct (Nat.eq_dec x u); lia.
Qed.
Lemma holders_E s C E t : In t E -> (0 < holders s C E t)%nat.
Proof. intros H. apply count_in in H. unfold holders. lia. Qed.
Lemma holders_C s C E t : In t C -> (0 < holders s C E t)%nat.
Proof. intros H. apply count_in in H. unfold holders. lia. Qed.
Lemma holders_T s C E i t : In i (ts_reg s) -> tp_tok (ts_tmpl s i) = Some t -> (0 < holders s C E t)%nat.
Proof. intros Hi Ht. unfold holders, tmpl_holders. pose proof (tcount_has (ts_reg s) (fun i => tp_tok (ts_tmpl s i)) i t Hi Ht). lia. Qed.

Lemma held_usable s c t : core s c -> (0 < c t)%nat -> usable s t.
Proof.
  intros I H. split; [apply (c_live _ _ I); exact H|]. intros Hb. destruct (c_bin _ _ I t Hb) as (? & _ & _ & _ & E). lia.
Qed.
Lemma tmpl_reg s C E i t : tinv s C E -> tp_tok (ts_tmpl s i) = Some t -> In i (ts_reg s).
Proof.
  intros I H. destruct (in_dec Nat.eq_dec i (ts_reg s)) as [Hi|Hi]; [exact Hi|]. rewrite (ti_unreg _ _ _ I i Hi) in H. discriminate.
Qed.

(** ** Each operation *)
Lemma inc_ok s c t : core s c -> usable s t -> Z.of_nat (c t) + 1 < two64 ->
  exists s' k, ts_tok s t = Some k /\ write_tok s t (fun k => with_ref k ((tk_ref k + 1) mod two64)) = Ok s' /\
    s' = set_tok s t (Some (with_ref k (tk_ref k + 1))) /\ core s' (inc c t).
Proof.
  intros I (Hl & Hb) Hw. unfold write_tok, get_tok. destruct (ts_tok s t) as [k|] eqn:Ek; [|contradiction]. cbn [bind].
  pose proof (c_ref _ _ I _ _ Ek Hb) as Er. exists (set_tok s t (Some (with_ref k (tk_ref k + 1)))), k.
  split; [reflexivity|]. split; [rewrite Z.mod_small by lia; reflexivity|]. split; [reflexivity|].
  replace (tk_ref k + 1) with (Z.of_nat (S (c t))) by lia.
  eapply core_ext; [|exact (core_set_ref s c t k (S (c t)) I Ek Hb)]. intros u. cbn. unfold inc.
  destruct (Nat.eqb_spec u t); subst; reflexivity.
Qed.

Lemma step_hold s C E t : tinv s C E -> op_ok s C E (OHold t) ->
  exists s', top_step s (OHold t) = Ok s' /\ tinv s' C (t :: E).
Proof.
  intros I (Hu & Hw). cbn [top_step]. destruct (inc_ok s _ t (ti_core _ _ _ I) Hu Hw) as (s' & k & Ek & -> & -> & Ic).
  eexists. split; [reflexivity|]. constructor.
  - eapply core_ext; [|exact Ic]. intros u. unfold inc, holders, tmpl_holders. cbn [set_tok ts_reg ts_tmpl count_occ].
    destruct (Nat.eq_dec t u) as [->|N]; [rewrite Nat.eqb_refl; lia|]. destruct (Nat.eqb_spec u t); [congruence|lia].
  - eapply chain_frame; [apply I|]. intros u ku _ Hk. unfold set_tok; cbn [ts_tok].
    destruct (Nat.eq_dec u t) as [->|N]; [rewrite upd_eq; eexists; split; [reflexivity|]; cbn; congruence|rewrite upd_neq by exact N; eauto].
  - apply I.
  - apply I.
  - apply I.
Qed.

Lemma done_frame_chain s s' t k o C : chain (ts_tok s) o C -> ts_tok s t = Some k ->
  (forall u, u <> t -> ts_tok s' u = ts_tok s u) -> (In t C -> exists k', ts_tok s' t = Some k' /\ tk_next k' = tk_next k) ->
  chain (ts_tok s') o C.
Proof.
  intros Hc Ek Ho Ht. eapply chain_frame; [exact Hc|]. intros u ku Hu Hk.
  destruct (Nat.eq_dec u t) as [->|N]; [|rewrite Ho by exact N; eauto]. rewrite Ek in Hk. injection Hk as <-. auto.
Qed.

(** Releasing a reference that is not the chain's own. *)
Lemma step_done s C E t : tinv s C E -> op_ok s C E (ODone t) ->
  exists s', top_step s (ODone t) = Ok s' /\ tinv s' C (remove1 t E).
Proof.
  intros I Hin. cbn [top_step op_ok] in *.
  destruct (done_using_ok s _ t (ti_core _ _ _ I) (holders_E _ _ _ _ Hin)) as (s' & -> & Ic & (F1 & F2 & F3 & F4 & F5) & Ho & _ & _ & k & Ek & H2 & H1).
  exists s'. split; [reflexivity|]. constructor.
  - eapply core_ext; [|exact Ic]. intros u. unfold dec, holders. rewrite (tmpl_holders_frame s s' u F2 F3).
    pose proof (count_remove1 E t u Hin). destruct (Nat.eqb u t); lia.
  - rewrite F1. apply (done_frame_chain s s' t k); [apply I|exact Ek|exact Ho|].
    intros HC. apply count_in in HC. apply count_in in Hin. destruct H2 as (-> & _ & _); [unfold holders; lia|]. eexists; split; reflexivity.
  - apply I.
  - rewrite F2. apply I.
  - intros i. rewrite F2, F3. apply I.
Qed.

(** Dropping a template's reference. *)
Lemma drop_tmpl s C E i : tinv s C E -> In i (ts_reg s) ->
  exists s' r, done_using s (tp_tok (ts_tmpl s i)) = Ok (s', r) /\ frame s s' /\ tinv (tmpl_set_tok s' i None) C E /\
    (forall u, tp_tok (ts_tmpl s i) <> Some u -> ts_tok s' u = ts_tok s u /\ (In u (ts_bin s') <-> In u (ts_bin s))).
Proof.
  intros I Hi. destruct (tp_tok (ts_tmpl s i)) as [t|] eqn:Et.
  - destruct (done_using_ok s _ t (ti_core _ _ _ I) (holders_T _ _ _ _ _ Hi Et)) as (s' & -> & Ic & (F1 & F2 & F3 & F4 & F5) & Ho & Hb & _ & k & Ek & H2 & H1).
    exists s', NOT_FREED. split; [reflexivity|]. split; [repeat split; assumption|]. split; [|intros u Hu; split; [apply Ho|apply Hb]; congruence].
    assert (K : forall u, (tmpl_holders (tmpl_set_tok s' i None) u + has (Some t) u = tmpl_holders s u)%nat).
    { intros u. pose proof (tmpl_holders_set s' i None u) as K. rewrite F2, F3, Et in K.
      rewrite (tmpl_holders_frame s s' u F2 F3) in K. specialize (K (ti_ndreg _ _ _ I) Hi). cbn [has] in K |- *. lia. }
    constructor.
    + eapply core_irrel; [..|eapply core_ext; [|exact Ic]]; try reflexivity.
      intros u. unfold dec, holders. specialize (K u). cbn [has] in K.
      destruct (Nat.eqb_spec u t) as [->|N]; [rewrite Nat.eqb_refl in K; lia|]. destruct (Nat.eqb_spec t u); [congruence|]. lia.
    + unfold tmpl_set_tok, set_tmpl; cbn [ts_tok ts_list]. rewrite F1. apply (done_frame_chain s s' t k); [apply I|exact Ek|exact Ho|].
      intros HC. apply count_in in HC. destruct H2 as (-> & _ & _); [|eexists; split; reflexivity].
      specialize (K t). rewrite has_self in K. unfold holders. lia.
    + apply I.
    + cbn. rewrite F2. apply I.
    + intros j Hj. cbn in Hj |- *. rewrite F2 in Hj. unfold upd. destruct (Nat.eqb_spec j i); [subst; contradiction|]. rewrite F3. apply I; exact Hj.
  - exists s, NOT_FREED. split; [reflexivity|]. split; [apply frame_refl|]. split; [|intros u Hu; split; reflexivity].
    assert (K : forall u, tmpl_holders (tmpl_set_tok s i None) u = tmpl_holders s u).
    { intros u. pose proof (tmpl_holders_set s i None u (ti_ndreg _ _ _ I) Hi) as K. rewrite Et in K. cbn [has] in K. lia. }
    constructor.
    + eapply core_irrel; [..|eapply core_ext; [|exact (ti_core _ _ _ I)]]; try reflexivity. intros u. unfold holders. rewrite K. reflexivity.
    + apply I.
    + apply I.
    + apply I.
    + intros j Hj. cbn in Hj |- *. unfold upd. destruct (Nat.eqb_spec j i); [subst; contradiction|]. apply I; exact Hj.
Qed.

(** Installing a token a template did not have. *)
Lemma install s C E i t : tinv s C E -> In i (ts_reg s) -> tp_tok (ts_tmpl s i) = None -> usable s t -> Z.of_nat (holders s C E t) + 1 < two64 ->
  exists s', write_tok s t (fun k => with_ref k ((tk_ref k + 1) mod two64)) = Ok s' /\ tinv (tmpl_set_tok s' i (Some t)) C E.
Proof.
  intros I Hi Et Hu Hw. destruct (inc_ok s _ t (ti_core _ _ _ I) Hu Hw) as (s' & k & Ek & -> & -> & Ic).
  eexists. split; [reflexivity|]. set (s1 := set_tok s t _) in *.
  assert (K : forall u, (tmpl_holders (tmpl_set_tok s1 i (Some t)) u = tmpl_holders s u + has (Some t) u)%nat).
  { intros u. pose proof (tmpl_holders_set s1 i (Some t) u (ti_ndreg _ _ _ I) Hi) as K.
    unfold s1 in K at 2; cbn [set_tok ts_tmpl] in K. rewrite Et in K.
    change (tmpl_holders s1 u) with (tmpl_holders s u) in K. change (has None u) with 0%nat in K. lia. }
  constructor.
  - eapply core_irrel; [..|eapply core_ext; [|exact Ic]]; try reflexivity.
    intros u. unfold inc, holders. rewrite K. cbn [has]. destruct (Nat.eqb_spec u t) as [->|N]; [rewrite Nat.eqb_refl; lia|].
    destruct (Nat.eqb_spec t u); [congruence|lia].
  - cbn [tmpl_set_tok set_tmpl ts_tok ts_list]. eapply chain_frame; [apply I|]. intros u ku _ Hk. unfold s1, set_tok; cbn [ts_tok].
    destruct (Nat.eq_dec u t) as [->|N]; [rewrite upd_eq; eexists; split; [reflexivity|]; cbn; congruence|rewrite upd_neq by exact N; eauto].
  - apply I.
  - apply I.
  - intros j Hj. cbn in Hj |- *. unfold upd. destruct (Nat.eqb_spec j i); [subst; contradiction|]. apply I; exact Hj.
Qed.

Lemma tinv_ext s s' C E : ts_tok s' = ts_tok s -> ts_fresh s' = ts_fresh s -> ts_pay s' = ts_pay s -> ts_pfresh s' = ts_pfresh s ->
  ts_bin s' = ts_bin s -> ts_list s' = ts_list s -> ts_reg s' = ts_reg s -> (forall i, tp_tok (ts_tmpl s' i) = tp_tok (ts_tmpl s i)) ->
  tinv s C E -> tinv s' C E.
Proof.
  intros E1 E2 E3 E4 E5 E6 E7 E8 I. constructor.
  - eapply core_irrel; [..|eapply core_ext; [|exact (ti_core _ _ _ I)]]; try assumption. intros t. unfold holders, tmpl_holders.
    rewrite E7. rewrite (tcount_ext (ts_reg s) (fun i => tp_tok (ts_tmpl s' i)) (fun i => tp_tok (ts_tmpl s i))) by (intros i _; apply E8). reflexivity.
  - rewrite E1, E6. apply I.
  - apply I.
  - rewrite E7. apply I.
  - intros i. rewrite E7, E8. apply I.
Qed.

Lemma opt_eqb_spec a b : opt_eqb a b = true <-> a = b.
Proof.
  destruct a as [a|], b as [b|]; cbn; split; intros H; try congruence; try discriminate.
  - apply Nat.eqb_eq in H. congruence.
  - injection H as ->. apply Nat.eqb_refl.
Qed.
Lemma upd_upd {A} (f : nat -> A) i x y j : upd (upd f i x) i y j = upd f i y j.
Proof. unfold upd. destruct (Nat.eqb j i); reflexivity. Qed.

Lemma replace_ok s C E i o : tinv s C E -> In i (ts_reg s) ->
  match o with Some t => usable s t /\ Z.of_nat (holders s C E t) + 1 < two64 | None => True end ->
  exists s', replace_template_token s i o = Ok s' /\ tinv s' C E /\ tp_tok (ts_tmpl s' i) = o.
Proof.
  intros I Hi Ho. unfold replace_template_token. destruct (opt_eqb (tp_tok (ts_tmpl s i)) o) eqn:Eo.
  - apply opt_eqb_spec in Eo. exists s. auto.
  - assert (Hne : tp_tok (ts_tmpl s i) <> o) by (intros H; apply opt_eqb_spec in H; congruence). clear Eo.
    destruct (drop_tmpl s C E i I Hi) as (s1 & r & -> & F & I1 & Oth). cbn [bind fst].
    destruct o as [t|].
    + destruct Ho as (Hu & Hw). destruct (Oth t Hne) as (Ot & Ob).
      destruct F as (F1 & F2 & F3 & F4 & F5).
      assert (Hu1 : usable (tmpl_set_tok s1 i None) t) by (unfold usable; cbn; rewrite Ot, Ob; exact Hu).
      assert (Hi1 : In i (ts_reg (tmpl_set_tok s1 i None))) by (cbn; rewrite F2; exact Hi).
      assert (Et1 : tp_tok (ts_tmpl (tmpl_set_tok s1 i None) i) = None) by (cbn; rewrite upd_eq; reflexivity).
      assert (Hh : (holders (tmpl_set_tok s1 i None) C E t <= holders s C E t)%nat).
      { unfold holders. pose proof (tmpl_holders_set s1 i None t) as K. rewrite F2 in K. specialize (K (ti_ndreg _ _ _ I) Hi).
        rewrite (tmpl_holders_frame s s1 t F2 F3) in K. cbn [has] in K. lia. }
      destruct (install _ C E i t I1 Hi1 Et1 Hu1 ltac:(lia)) as (s2 & W & I2).
      unfold write_tok, get_tok in W |- *. cbn [tmpl_set_tok set_tmpl ts_tok] in W.
      destruct (ts_tok s1 t) as [k|]; [|discriminate]. cbn [bind] in W |- *. injection W as <-.
      eexists. split; [reflexivity|]. split; [|cbn; rewrite upd_eq; reflexivity].
      eapply tinv_ext; [..|exact I2]; try reflexivity. intros j. cbn. unfold upd. destruct (Nat.eqb j i); reflexivity.
    + eexists. split; [reflexivity|]. split; [exact I1|cbn; rewrite upd_eq; reflexivity].
Qed.

(** A new token, not held by anybody. *)
Lemma new_tinv s C E i v len : tinv s C E -> good_val s v len ->
  exists s', new_token s i v len = Ok (s', next_token s) /\ tinv s' C E /\ holders s' C E (next_token s) = 0%nat /\
    (exists old, ts_tok s' (next_token s) = Some (mkTok v len i 0 old)) /\ ~ In (next_token s) (ts_bin s') /\
    (forall u, u <> next_token s -> ts_tok s' u = ts_tok s u) /\ (forall p, ts_pay s' p = ts_pay s p) /\
    ts_reg s' = ts_reg s /\ (forall j, ts_tmpl s' j = ts_tmpl s j) /\ ts_list s' = ts_list s /\ ~ usable s (next_token s) /\
    holders s C E (next_token s) = 0%nat.
Proof.
  intros I Hv. destruct (new_token_ok s _ i v len (ti_core _ _ _ I) Hv)
    as (s' & old & E1 & Ic & Ec & Et & Hb & Ho & Hb2 & Hp & Hl & Hr & Hm & Hf & Hpf & Hlen & Hus).
  assert (Hh : forall u, holders s' C E u = holders s C E u) by (intros u; unfold holders; rewrite (tmpl_holders_frame s s' u Hr Hm); reflexivity).
  exists s'. split; [exact E1|]. split.
  - constructor.
    + eapply core_ext; [|exact Ic]. intros u. rewrite Hh. reflexivity.
    + rewrite Hl. eapply chain_same; [apply I|]. intros u Hu. apply Ho. intros ->. apply count_in in Hu. unfold holders in Ec. lia.
    + apply I.
    + rewrite Hr; apply I.
    + intros j. rewrite Hr, Hm. apply I.
  - rewrite Hh. split; [exact Ec|]. split; [exists old; exact Et|]. split; [exact Hb|]. split; [exact Ho|]. split; [exact Hp|].
    split; [exact Hr|]. split; [exact Hm|]. split; [exact Hl|]. split; [exact Hus|exact Ec].
Qed.

Lemma alloc_tinv s C E d : tinv s C E -> tinv (fst (alloc_pay s d)) C E /\ good_val (fst (alloc_pay s d)) (Some (snd (alloc_pay s d))) (Z.of_nat (length d)).
Proof.
  intros I. destruct (alloc_pay_ok s _ d (ti_core _ _ _ I)) as (Ic & Ep & Hu & _ & _). split.
  - constructor; try apply I. exact Ic.
  - split; [exists d; auto|exact Hu].
Qed.

Lemma step_new s C E i d : tinv s C E -> exists s', top_step s (ONew i d) = Ok s' /\ tinv s' C E.
Proof.
  intros I. cbn [top_step]. pose proof (alloc_tinv s C E d I) as A. destruct (alloc_pay s d) as [s1 p]. cbn [fst snd] in A. destruct A as (I1 & Hg).
  destruct (new_tinv s1 C E i _ _ I1 Hg) as (s2 & -> & I2 & _). exists s2. auto.
Qed.

(** Setting the reference count of a token from its true count [c t] to [n]. *)
Lemma write_ref s C E t k n : tinv s C E -> ts_tok s t = Some k -> ~ In t (ts_bin s) ->
  forall C' E' , (forall u, holders s C' E' u = if Nat.eqb u t then n else holders s C E u) -> C' = C ->
  tinv (set_tok s t (Some (with_ref k (Z.of_nat n)))) C' E'.
Proof.
  intros I Ek Hb C' E' Hh ->. constructor.
  - eapply core_ext; [|exact (core_set_ref s _ t k n (ti_core _ _ _ I) Ek Hb)]. intros u. cbv beta. rewrite <- Hh. reflexivity.
  - cbn [set_tok ts_tok ts_list]. eapply chain_frame; [apply I|]. intros u ku _ Hk.
    destruct (Nat.eq_dec u t) as [->|N]; [rewrite upd_eq; eexists; split; [reflexivity|]; cbn; congruence|rewrite upd_neq by exact N; eauto].
  - apply I.
  - apply I.
  - apply I.
Qed.

Lemma set_val_tinv s C E t k p len : tinv s C E -> ts_tok s t = Some k -> ~ In t (ts_bin s) -> good_val s (Some p) len ->
  tinv (set_tok s t (Some (with_len (with_val k (Some p)) len))) C E.
Proof.
  intros I Ek Hb Hg. constructor; try apply I.
  - exact (core_set_val s _ t k p len (ti_core _ _ _ I) Ek Hb Hg).
  - cbn [set_tok ts_tok ts_list]. eapply chain_frame; [apply I|]. intros u ku _ Hk.
    destruct (Nat.eq_dec u t) as [->|N]; [rewrite upd_eq; eexists; split; [reflexivity|]; cbn; congruence|rewrite upd_neq by exact N; eauto].
Qed.

Lemma free_value_tinv s C E t k : tinv s C E -> ts_tok s t = Some k ->
  exists s', free_token_value s t = Ok s' /\ tinv s' C E /\ frame s s' /\ ts_bin s' = ts_bin s /\ ts_tok s' t = Some (with_val k None) /\
    (forall u, u <> t -> ts_tok s' u = ts_tok s u) /\ (forall p, tk_val k <> Some p -> ts_pay s' p = ts_pay s p).
Proof.
  intros I Ek. destruct (free_value_ok s _ t k (ti_core _ _ _ I) Ek) as (s' & E1 & Ic & F & Hb & Et & Ho & _ & Hp).
  exists s'. split; [exact E1|]. split; [|auto 10]. destruct F as (F1 & F2 & F3 & F4 & F5). constructor.
  - eapply core_ext; [|exact Ic]. intros u. unfold holders. rewrite (tmpl_holders_frame s s' u F2 F3). reflexivity.
  - rewrite F1. eapply done_frame_chain; [apply I|exact Ek|exact Ho|]. intros _. eexists. split; [exact Et|reflexivity].
  - apply I.
  - rewrite F2; apply I.
  - intros j. rewrite F2, F3. apply I.
Qed.

Lemma reusable_spec s C E i : tinv s C E ->
  match tp_tok (ts_tmpl s i) with
  | Some t => exists k, ts_tok s t = Some k /\ ~ In t (ts_bin s) /\ reusable s i = (tk_ref k =? 1) /\ tk_ref k = Z.of_nat (holders s C E t) /\ In i (ts_reg s)
  | None => reusable s i = false
  end.
Proof.
  intros I. unfold reusable. destruct (tp_tok (ts_tmpl s i)) as [t|] eqn:Et; [|reflexivity].
  pose proof (tmpl_reg _ _ _ _ _ I Et) as Hi. pose proof (holders_T s C E i t Hi Et) as Hh.
  destruct (held_usable s _ t (ti_core _ _ _ I) Hh) as (Hl & Hb). destruct (ts_tok s t) as [k|] eqn:Ek; [|contradiction].
  exists k. split; [reflexivity|]. split; [exact Hb|]. split; [reflexivity|]. split; [|exact Hi]. apply (c_ref _ _ (ti_core _ _ _ I)); assumption.
Qed.

(** [_lf_get_token]: the template's own token, emptied, or a new one with a reference. *)
Lemma get_token_ok s C E i : tinv s C E ->
  exists s' r k, get_token s i = Ok (s', r) /\ ts_tok s' r = Some k /\ ~ In r (ts_bin s') /\ tk_val k = None /\
    ts_reg s' = ts_reg s /\ (forall j, ts_tmpl s' j = ts_tmpl s j) /\
    (forall p, (ts_pay s' p = ts_pay s p /\ (unowned s p -> unowned s' p)) \/ ~ unowned s p) /\
    if reusable s i then tp_tok (ts_tmpl s i) = Some r /\ tinv s' C E
    else r = next_token s /\ tinv s' C (r :: E) /\ holders s C E r = 0%nat /\ tp_tok (ts_tmpl s i) <> Some r.
Proof.
  intros I. pose proof (reusable_spec s C E i I) as HR.
  assert (Fresh : exists s' r k, (do! r <- new_token s i None 0; do! s2 <- write_tok (fst r) (snd r) (fun k => with_ref k 1); Ok (s2, snd r)) = Ok (s', r) /\
    ts_tok s' r = Some k /\ ~ In r (ts_bin s') /\ tk_val k = None /\ ts_reg s' = ts_reg s /\ (forall j, ts_tmpl s' j = ts_tmpl s j) /\
    (forall p, (ts_pay s' p = ts_pay s p /\ (unowned s p -> unowned s' p)) \/ ~ unowned s p) /\
    r = next_token s /\ tinv s' C (r :: E) /\ holders s C E r = 0%nat).
  { destruct (new_tinv s C E i None 0 I Logic.I) as (s1 & -> & I1 & Hh & (old & Et) & Hb & Ho & Hp & Hr & Hm & Hl & _ & Hh0). cbn [bind fst snd].
    unfold write_tok, get_tok. rewrite Et. cbn [bind]. set (n := next_token s) in *.
    exists (set_tok s1 n (Some (with_ref (mkTok None 0 i 0 old) 1))), n, (mkTok None 0 i 1 old).
    split; [reflexivity|]. split; [cbn; apply upd_eq|]. split; [exact Hb|]. split; [reflexivity|]. split; [exact Hr|]. split; [exact Hm|].
    split.
    { intros p. left. split; [apply Hp|]. intros Hun t k Ht Hv. cbn in Ht. destruct (Nat.eq_dec t n) as [->|N].
      - rewrite upd_eq in Ht. injection Ht as <-. discriminate.
      - rewrite upd_neq in Ht by exact N. rewrite Ho in Ht by exact N. eapply Hun; eauto. }
    split; [reflexivity|]. split; [|exact Hh0].
    change 1 with (Z.of_nat 1). apply (write_ref s1 C E n _ 1 I1 Et Hb); [|reflexivity].
    intros u. unfold holders in *. cbn [count_occ]. destruct (Nat.eq_dec n u) as [Eu|N]; [subst u; rewrite Nat.eqb_refl; lia|].
    destruct (Nat.eqb_spec u n); [congruence|reflexivity]. }
  unfold get_token. destruct (tp_tok (ts_tmpl s i)) as [t|] eqn:Et.
  - destruct HR as (k & Ek & Hb & HR & Er & Hi). unfold get_tok at 1. rewrite Ek. cbn [bind]. rewrite HR.
    destruct (Z.eqb_spec (tk_ref k) 1) as [E1|E1].
    + destruct (free_value_tinv s C E t k I Ek) as (s1 & -> & I1 & (F1 & F2 & F3 & F4 & F5) & B1 & T1 & O1 & P1). cbn [bind].
      exists s1, t, (with_val k None). split; [reflexivity|]. split; [exact T1|]. split; [rewrite B1; exact Hb|]. split; [reflexivity|].
      split; [exact F2|]. split; [exact F3|]. split; [|auto].
      intros p. destruct (tk_val k) as [q|] eqn:Eq.
      * destruct (Nat.eq_dec q p) as [->|N]; [right; intros Hun; eapply Hun; eauto|]. left. split; [apply P1; congruence|].
        intros Hun u ku Hu Hv. destruct (Nat.eq_dec u t) as [->|Nu]; [rewrite T1 in Hu; injection Hu as <-; discriminate|].
        rewrite O1 in Hu by exact Nu. eapply Hun; eauto.
      * left. split; [apply P1; discriminate|]. intros Hun u ku Hu Hv. destruct (Nat.eq_dec u t) as [->|Nu]; [rewrite T1 in Hu; injection Hu as <-; discriminate|].
        rewrite O1 in Hu by exact Nu. eapply Hun; eauto.
    + destruct Fresh as (s' & r & k' & A1 & A2 & A3 & A4 & A5 & A6 & A7 & A8 & A9 & A10). exists s', r, k'.
      split; [exact A1|]. split; [exact A2|]. split; [exact A3|]. split; [exact A4|]. split; [exact A5|]. split; [exact A6|]. split; [exact A7|].
      split; [exact A8|]. split; [exact A9|]. split; [exact A10|]. intros H. injection H as ->.
      pose proof (holders_T s C E i r Hi Et). lia.
  - rewrite HR. destruct Fresh as (s' & r & k' & A1 & A2 & A3 & A4 & A5 & A6 & A7 & A8 & A9 & A10). exists s', r, k'.
      split; [exact A1|]. split; [exact A2|]. split; [exact A3|]. split; [exact A4|]. split; [exact A5|]. split; [exact A6|]. split; [exact A7|].
      split; [exact A8|]. split; [exact A9|]. split; [exact A10|]. discriminate.
Qed.

Lemma init_value_ok s C E i p len : tinv s C E -> good_val s (Some p) len ->
  exists s' r, initialize_token_with_value s i p len = Ok (s', r) /\ payload s' r = Some p /\ ts_pay s' p = ts_pay s p /\
    ts_reg s' = ts_reg s /\ (forall j, ts_tmpl s' j = ts_tmpl s j) /\
    if reusable s i then tp_tok (ts_tmpl s i) = Some r /\ tinv s' C E
    else r = next_token s /\ tinv s' C (r :: E) /\ holders s C E r = 0%nat /\ tp_tok (ts_tmpl s i) <> Some r.
Proof.
  intros I ((d & Hd & Hlen) & Hun). unfold initialize_token_with_value.
  destruct (get_token_ok s C E i I) as (s1 & r & k & -> & Ek & Hb & Hv & Hr & Hm & Hp & HR). cbn [bind fst snd].
  unfold write_tok, get_tok. rewrite Ek. cbn [bind].
  assert (Hg : good_val s1 (Some p) len).
  { destruct (Hp p) as [(A & B)|A]; [|contradiction]. split; [exists d; rewrite A; auto|auto]. }
  exists (set_tok s1 r (Some (with_len (with_val k (Some p)) len))), r. split; [reflexivity|].
  split; [unfold payload; cbn; rewrite upd_eq; reflexivity|]. split; [cbn; destruct (Hp p) as [(A & _)|A]; [exact A|contradiction]|].
  split; [exact Hr|]. split; [exact Hm|]. destruct (reusable s i).
  - destruct HR as (A & B). split; [exact A|]. apply set_val_tinv; assumption.
  - destruct HR as (A & B & D). split; [exact A|]. split; [|exact D]. apply set_val_tinv; assumption.
Qed.

Lemma step_value s C E i d : tinv s C E -> In i (ts_reg s) ->
  exists s', top_step s (OValue i d) = Ok s' /\ tinv s' C (ext_step s E (OValue i d)).
Proof.
  intros I Hi. cbn [top_step ext_step]. pose proof (alloc_tinv s C E d I) as A.
  assert (R : reusable (fst (alloc_pay s d)) i = reusable s i) by reflexivity.
  assert (N : next_token (fst (alloc_pay s d)) = next_token s) by reflexivity.
  destruct (alloc_pay s d) as [s1 p]. cbn [fst snd] in *. destruct A as (I1 & Hg).
  destruct (init_value_ok s1 C E i p _ I1 Hg) as (s2 & r & -> & _ & _ & _ & _ & HR). cbn [bind fst]. rewrite R in HR.
  exists s2. split; [reflexivity|]. destruct (reusable s i); [apply HR|]. destruct HR as (-> & HI & _). rewrite N in HI. exact HI.
Qed.

Lemma step_set s C E i d : tinv s C E -> In i (ts_reg s) ->
  exists s', top_step s (OSet i d) = Ok s' /\ tinv s' C (ext_step s E (OSet i d)).
Proof.
  intros I Hi. cbn [top_step ext_step]. pose proof (alloc_tinv s C E d I) as A.
  assert (R : reusable (fst (alloc_pay s d)) i = reusable s i) by reflexivity.
  assert (M : ts_tmpl (fst (alloc_pay s d)) = ts_tmpl s) by reflexivity.
  assert (Rg : ts_reg (fst (alloc_pay s d)) = ts_reg s) by reflexivity.
  destruct (alloc_pay s d) as [s1 p]. cbn [fst snd] in *. destruct A as (I1 & Hg).
  destruct (init_value_ok s1 C E i p _ I1 Hg) as (s2 & r & -> & _ & _ & Hr & Hm & HR). cbn [bind fst snd]. rewrite R, M in HR.
  eexists. split; [reflexivity|].
  destruct (reusable s i).
  - destruct HR as (Et & I2). eapply tinv_ext; [..|exact I2]; try reflexivity.
    intros j. cbn. unfold upd. destruct (Nat.eqb_spec j i); [subst j; cbn; rewrite Hm, M; symmetry; exact Et|reflexivity].
  - destruct HR as (_ & I2 & Hz & Hne).
    assert (Hi2 : In i (ts_reg s2)) by (rewrite Hr, Rg; exact Hi).
    assert (K : forall u, (tmpl_holders (tmpl_set_tok s2 i (Some r)) u + has (tp_tok (ts_tmpl s i)) u = tmpl_holders s2 u + has (Some r) u)%nat).
    { intros u. pose proof (tmpl_holders_set s2 i (Some r) u (ti_ndreg _ _ _ I2) Hi2) as K. rewrite Hm, M in K. exact K. }
    constructor.
    + eapply core_irrel; [..|eapply core_ext; [|exact (ti_core _ _ _ I2)]]; try reflexivity.
      intros u. specialize (K u). unfold holders. destruct (tp_tok (ts_tmpl s i)) as [t|] eqn:Et.
      * cbn [has] in K. cbn [count_occ]. destruct (Nat.eq_dec r u), (Nat.eq_dec t u), (Nat.eqb_spec r u), (Nat.eqb_spec t u); try congruence; lia.
      * cbn [has] in K. cbn [count_occ]. destruct (Nat.eq_dec r u), (Nat.eqb_spec r u); try congruence; lia.
    + apply I2.
    + apply I2.
    + apply I2.
    + intros j Hj. cbn in Hj |- *. unfold upd. destruct (Nat.eqb_spec j i); [subst; contradiction|]. apply I2; exact Hj.
Qed.

(** ** _lf_initialize_template *)
Definition init_fresh (s : tst) (i : nat) (esz : Z) : res tst :=
  let m := ts_tmpl s i in
  let s := set_tmpl s i (mkTmpl (tp_tok m) esz (tp_ndest m) (tp_cctor m)) in
  do! r <- new_token s i None 0;
  write_tok (tmpl_set_tok (fst r) i (Some (snd r))) (snd r) (fun k => with_ref k 1).
Lemma init_fresh_ok s C E i esz : tinv s C E -> In i (ts_reg s) -> tp_tok (ts_tmpl s i) = None ->
  exists s', init_fresh s i esz = Ok s' /\ tinv s' C E.
Proof.
  intros I Hi Et. unfold init_fresh.
  set (s0 := set_tmpl s i _).
  assert (I0 : tinv s0 C E).
  { eapply tinv_ext; [..|exact I]; try reflexivity. intros j. unfold s0, set_tmpl; cbn. unfold upd. destruct (Nat.eqb_spec j i); [subst j; reflexivity|reflexivity]. }
  destruct (new_tinv s0 C E i None 0 I0 Logic.I) as (s1 & -> & I1 & Hh & (old & Ek) & Hb & Ho & Hp & Hr & Hm & Hl & _ & Hh0). cbn [bind fst snd].
  set (n := next_token s0) in *. unfold write_tok, get_tok. cbn [tmpl_set_tok set_tmpl ts_tok]. rewrite Ek. cbn [bind].
  eexists. split; [reflexivity|].
  assert (Hi1 : In i (ts_reg s1)) by (rewrite Hr; exact Hi).
  assert (Et1 : tp_tok (ts_tmpl s1 i) = None) by (rewrite Hm; unfold s0, set_tmpl; cbn; rewrite upd_eq; cbn; exact Et).
  destruct (install s1 C E i n I1 Hi1 Et1) as (s2 & W & I2); [split; [rewrite Ek; discriminate|exact Hb]|rewrite Hh; reflexivity|].
  unfold write_tok, get_tok in W. rewrite Ek in W. cbn [bind tk_ref] in W. injection W as <-. exact I2.
Qed.

Lemma step_init s C E i esz : tinv s C E -> exists s', top_step s (OInit i esz) = Ok s' /\ tinv s' C E.
Proof.
  intros I. cbn [top_step]. unfold initialize_template.
  set (s0 := if mem i (ts_reg s) then s else set_reg s (i :: ts_reg s)).
  assert (I0 : tinv s0 C E).
  { unfold s0. destruct (mem i (ts_reg s)) eqn:Em; [exact I|]. apply mem_nIn in Em. constructor.
    - eapply core_irrel; [..|eapply core_ext; [|exact (ti_core _ _ _ I)]]; try reflexivity. intros u. unfold holders, tmpl_holders, set_reg; cbn.
      rewrite (ti_unreg _ _ _ I i Em). reflexivity.
    - apply I.
    - apply I.
    - cbn. constructor; [exact Em|apply I].
    - intros j Hj. cbn in Hj |- *. apply (ti_unreg _ _ _ I). intros Hx; apply Hj; right; exact Hx. }
  assert (Hi : In i (ts_reg s0)).
  { unfold s0. destruct (mem i (ts_reg s)) eqn:Em; [apply mem_In; exact Em|left; reflexivity]. }
  clearbody s0. clear I s. rename s0 into s, I0 into I.
  pose proof (reusable_spec s C E i I) as HR. destruct (tp_tok (ts_tmpl s i)) as [t|] eqn:Et.
  - destruct HR as (k & Ek & Hb & _ & Er & _). unfold get_tok at 1. rewrite Ek. cbn [bind].
    destruct ((tk_ref k =? 1) && (tp_esz (ts_tmpl s (tk_type k)) =? esz)) eqn:Ec.
    + destruct (free_value_tinv s C E t k I Ek) as (s1 & -> & I1 & _ & B1 & T1 & _). cbn [bind].
      unfold write_tok, get_tok. rewrite T1. cbn [bind]. eexists. split; [reflexivity|].
      assert (Ern : tk_ref k = 1) by lia.
      change 1 with (Z.of_nat 1). apply (write_ref s1 C E t _ 1 I1 T1 ltac:(rewrite B1; exact Hb)); [|reflexivity].
      intros u. destruct (Nat.eqb_spec u t) as [->|N]; [|reflexivity].
      pose proof (c_ref _ _ (ti_core _ _ _ I1) t _ T1 ltac:(rewrite B1; exact Hb)) as Hx. cbn in Hx. lia.
    + pose proof (drop_tmpl s C E i I Hi) as (s1 & r & Ed & (F1 & F2 & F3 & F4 & F5) & I1 & _). rewrite Et in Ed. rewrite Ed. cbn [bind fst].
      apply (init_fresh_ok (tmpl_set_tok s1 i None) C E i esz I1); [cbn; rewrite F2; exact Hi|cbn; rewrite upd_eq; reflexivity].
  - pose proof (init_fresh_ok s C E i esz I Hi Et) as K. unfold init_fresh in K. rewrite Et in K. exact K.
Qed.

(** ** lf_writable_copy *)
Lemma writable_copy_ok s C E i : tinv s C E -> op_ok s C E (OCopy i) ->
  exists s' o C', writable_copy s i = Ok (s', o) /\ tinv s' C' E /\ (forall j, ts_tmpl s' j = ts_tmpl s j) /\ ts_reg s' = ts_reg s /\
   match tp_tok (ts_tmpl s i) with
   | None => o = None /\ s' = s
   | Some t => exists k r, ts_tok s t = Some k /\ o = Some r /\
       ((r = t /\ s' = s /\ C' = C /\ holders s C E t = 1%nat /\ tp_ndest (ts_tmpl s i) = 1) \/
        (r = t /\ s' = s /\ C' = C /\ (tp_esz (ts_tmpl s i) * tk_len k) mod two64 = 0 /\ tp_cctor (ts_tmpl s i) = false) \/
        (r <> t /\ ~ usable s r /\ C' = r :: C /\ ts_tok s' t = Some k /\ contents s' r = contents s t /\ contents s' t = contents s t /\
         payload s' r <> payload s t /\ (forall p d, ts_pay s p = Some d -> ts_pay s' p = Some d) /\ (forall p, payload s' r = Some p -> ts_pay s p = None) /\
         holders s' C' E r = 1%nat))
   end.
Proof.
  intros I Hop. unfold writable_copy. pose proof (reusable_spec s C E i I) as HR. cbn [op_ok] in Hop.
  destruct (tp_tok (ts_tmpl s i)) as [t|] eqn:Et; [|exists s, None, C; auto 6].
  destruct HR as (k & Ek & Hb & _ & Er & Hi). unfold get_tok at 1. rewrite Ek. cbn [bind].
  destruct ((tp_ndest (ts_tmpl s i) =? 1) && (tk_ref k =? 1)) eqn:E1.
  { exists s, (Some t), C. split; [reflexivity|]. split; [exact I|]. split; [reflexivity|]. split; [reflexivity|].
    exists k, t. split; [reflexivity|]. split; [reflexivity|]. left. split; [reflexivity|]. split; [reflexivity|]. split; [reflexivity|]. lia. }
  destruct (negb (tp_cctor (ts_tmpl s i)) && ((tp_esz (ts_tmpl s i) * tk_len k) mod two64 =? 0)) eqn:E2.
  { exists s, (Some t), C. split; [reflexivity|]. split; [exact I|]. split; [reflexivity|]. split; [reflexivity|].
    exists k, t. split; [reflexivity|]. split; [reflexivity|]. right; left. split; [reflexivity|]. split; [reflexivity|]. split; [reflexivity|]. 
    apply andb_true_iff in E2. destruct E2 as (E2 & E3). split; [apply Z.eqb_eq; exact E3|destruct (tp_cctor (ts_tmpl s i)); [discriminate|reflexivity]]. }
  unfold contents in Hop. rewrite Ek in Hop. destruct (tk_val k) as [p|] eqn:Ev; [|congruence].
  destruct (c_val _ _ (ti_core _ _ _ I) t k p Ek Ev) as (d & Ed & El).
  unfold copy_payload. rewrite Ev, Ed. replace (tk_len k <=? Z.of_nat (length d)) with true by lia.
  rewrite El, Nat2Z.id, firstn_all. cbn [bind].
  pose proof (alloc_tinv s C E d I) as A. pose proof (alloc_pay_ok s _ d (ti_core _ _ _ I)) as (_ & Ep & _ & Eq & Eo).
  assert (G : forall u, ts_tok (fst (alloc_pay s d)) u = ts_tok s u) by reflexivity.
  assert (G2 : ts_bin (fst (alloc_pay s d)) = ts_bin s) by reflexivity.
  assert (G3 : forall u, usable (fst (alloc_pay s d)) u <-> usable s u) by (intros u; unfold usable; rewrite G, G2; reflexivity).
  assert (Pf : ts_pay s (snd (alloc_pay s d)) = None) by (apply (c_pfresh _ _ (ti_core _ _ _ I)); rewrite Eq; lia).
  set (s1 := fst (alloc_pay s d)) in *. set (q := snd (alloc_pay s d)) in *.
  assert (Hgs : ts_reg s1 = ts_reg s /\ ts_tmpl s1 = ts_tmpl s /\ ts_list s1 = ts_list s) by (repeat split; reflexivity). destruct Hgs as (Hgr & Hgt & Hgl).
  clearbody s1 q. cbn [fst snd] in A. destruct A as (I1 & Hg).
  destruct (new_tinv s1 C E i (Some q) _ I1 Hg) as (s2 & -> & I2 & Hh & (old & Ek2) & Hb2 & Ho & Hp & Hr & Hm & Hl & Hus & Hh0). cbn [bind fst snd].
  set (n := next_token s1) in *.
  assert (Hnt : n <> t) by (intros ->; apply Hus; rewrite G3; split; [rewrite Ek; discriminate|exact Hb]).
  unfold write_tok, get_tok. rewrite Ek2. cbn [bind].
  set (s3 := set_tok s2 n _).
  assert (E3 : ts_tok s3 n = Some (mkTok (Some q) (Z.of_nat (length d)) i 1 (ts_list s2))) by (unfold s3, set_tok; cbn; rewrite upd_eq; reflexivity).
  exists (set_list s3 (Some n)), (Some n), (n :: C). split; [reflexivity|].
  assert (HnC : ~ In n C) by (intros Hx; apply count_in in Hx; unfold holders in Hh; lia).
  assert (Hot : ts_tok s3 t = ts_tok s t) by (unfold s3, set_tok; cbn; rewrite upd_neq by congruence; rewrite Ho by congruence; apply G).
  assert (Hc3 : holders s3 (n :: C) E n = 1%nat).
  { unfold holders in *. change (tmpl_holders s3 n) with (tmpl_holders s2 n). cbn [count_occ]. destruct (Nat.eq_dec n n); [lia|contradiction]. }
  split; [|split; [|split]].
  - constructor.
    + assert (X : core (set_tok s2 n (Some (with_ref (mkTok (Some q) (Z.of_nat (length d)) i 0 old) (Z.of_nat 1)))) (holders s2 (n :: C) E)).
      { eapply core_ext; [|exact (core_set_ref s2 _ n _ 1 (ti_core _ _ _ I2) Ek2 Hb2)]. intros u. cbv beta. unfold holders in *. cbn [count_occ].
        destruct (Nat.eqb_spec u n) as [->|N]; [destruct (Nat.eq_dec n n); [lia|contradiction]|]. destruct (Nat.eq_dec n u); [congruence|reflexivity]. }
      assert (Y : ts_tok (set_tok s2 n (Some (with_ref (mkTok (Some q) (Z.of_nat (length d)) i 0 old) (Z.of_nat 1)))) n = Some (mkTok (Some q) (Z.of_nat (length d)) i 1 old)) by (cbn; rewrite upd_eq; reflexivity).
      pose proof (core_set_next _ _ n _ (ts_list s2) X Y) as Z0. cbn [with_next tk_val tk_len tk_type tk_ref] in Z0.
      constructor; unfold set_list, s3, set_tok in *; cbn [ts_tok ts_fresh ts_pay ts_pfresh ts_bin ts_list ts_reg ts_tmpl] in *.
      * intros u ku Hu. apply (c_ref _ _ Z0). cbn. rewrite upd_upd. exact Hu.
      * intros u Hu. destruct (c_bin _ _ Z0 u Hu) as (ku & Hk & Rest). cbn in Hk. rewrite upd_upd in Hk. exists ku. split; [exact Hk|exact Rest].
      * intros u Hu. pose proof (c_live _ _ Z0 u Hu) as Hk. cbn in Hk. rewrite upd_upd in Hk. exact Hk.
      * apply (c_nodup _ _ Z0).
      * apply (c_len _ _ Z0).
      * intros u Hu. pose proof (c_fresh _ _ Z0 u Hu) as Hk. cbn in Hk. rewrite upd_upd in Hk. exact Hk.
      * intros u ku x Hu. apply (c_val _ _ Z0 u). cbn. rewrite upd_upd. exact Hu.
      * intros u1 u2 k1 k2 x A1 A2. apply (c_inj _ _ Z0 u1 u2); cbn; rewrite upd_upd; assumption.
      * apply (c_pfresh _ _ Z0).
    + cbn [set_list ts_tok ts_list]. econstructor; [exact E3|]. cbn [tk_next]. eapply chain_same; [apply I2|].
      intros u Hu. unfold s3, set_tok; cbn. apply upd_neq. intros ->. contradiction.
    + constructor; [exact HnC|apply I].
    + apply I2.
    + apply I2.
  - intros j. cbn. rewrite Hm. rewrite Hgt. reflexivity.
  - cbn. rewrite Hr. exact Hgr.
  - exists k, n. split; [reflexivity|]. split; [reflexivity|]. right; right.
    split; [exact Hnt|]. split; [rewrite <- G3; exact Hus|]. split; [reflexivity|]. split; [cbn [set_list ts_tok]; rewrite Hot; exact Ek|].
    assert (Hpq : p <> q) by (intros ->; rewrite Pf in Ed; discriminate).
    unfold contents, payload. cbn [set_list ts_tok ts_pay]. rewrite E3, Hot, Ek. cbn [tk_val]. rewrite Ev.
    change (ts_pay s3) with (ts_pay s2). rewrite !Hp. rewrite Ep, Ed. rewrite (Eo p Hpq), Ed.
    split; [reflexivity|]. split; [reflexivity|]. split; [congruence|].
    split; [intros x dx Hx; rewrite Hp; rewrite Eo; [exact Hx|intros ->; rewrite Pf in Hx; discriminate]|].
    split; [intros x Hx; injection Hx as <-; exact Pf|exact Hc3].
Qed.

(** ** _lf_free_token_copies *)
Lemma end_tag_ok : forall C fuel s E, tinv s C E -> (length C <= fuel)%nat -> (length (ts_bin s) + length C <= BIN_LIMIT)%nat ->
  exists s', free_token_copies fuel s = Ok s' /\ tinv s' [] E /\ ts_list s' = None.
Proof.
  induction C as [|t C IH]; intros fuel s E I Hf Hb.
  - pose proof (ti_chain _ _ _ I) as Hc. inversion Hc as [Hn|]; subst. exists s. split; [|auto]. destruct fuel; cbn; rewrite <- Hn; reflexivity.
  - pose proof (ti_chain _ _ _ I) as Hc. inversion Hc as [|? k ? Ek Hc' Hl]; subst.
    destruct fuel as [|f]; [cbn in Hf; lia|]. cbn [free_token_copies]. rewrite <- Hl.
    assert (Hpos : (0 < holders s (t :: C) E t)%nat) by (apply holders_C; left; reflexivity).
    destruct (done_using_ok s _ t (ti_core _ _ _ I) Hpos) as (s1 & -> & Ic & (F1 & F2 & F3 & F4 & F5) & Ho & _ & Hlen & k' & Ek' & H2 & H1).
    rewrite Ek in Ek'. injection Ek' as <-. cbn [bind fst].
    pose proof (ti_ndC _ _ _ I) as Hnd. inversion Hnd as [|? ? HnC HndC]; subst.
    assert (En : exists k1, ts_tok s1 t = Some k1 /\ tk_next k1 = tk_next k).
    { destruct (Nat.eq_dec (holders s (t :: C) E t) 1) as [Eo|No].
      - destruct (H1 Eo) as (_ & _ & _ & Hroom & _). destruct Hroom as (-> & _); [cbn [length] in Hb; lia|]. eexists; split; reflexivity.
      - destruct H2 as (-> & _); [lia|]. eexists; split; reflexivity. }
    destruct En as (k1 & Ek1 & En). unfold get_tok. rewrite Ek1. cbn [bind].
    apply IH; [|cbn [length] in Hf; lia|cbn [set_list ts_bin]; cbn [length] in Hb; lia].
    constructor.
    + eapply core_irrel; [..|eapply core_ext; [|exact Ic]]; try reflexivity.
      intros u. unfold dec, holders. rewrite (tmpl_holders_frame s (set_list s1 (tk_next k1)) u F2 F3). cbn [count_occ].
      destruct (Nat.eqb_spec u t) as [->|N]; [destruct (Nat.eq_dec t t); [lia|contradiction]|]. destruct (Nat.eq_dec t u); [congruence|reflexivity].
    + cbn [set_list ts_tok ts_list]. rewrite En. eapply chain_same; [exact Hc'|]. intros u Hu. apply Ho. intros ->. contradiction.
    + exact HndC.
    + cbn. rewrite F2. apply I.
    + intros j. cbn. rewrite F2, F3. apply I.
Qed.

Lemma chain_walk s : forall C fuel o, chain (ts_tok s) o C -> (length C <= fuel)%nat ->
  (fix walk (fuel : nat) (o : option nat) : list nat :=
     match fuel, o with
     | S f, Some t => t :: match ts_tok s t with Some k => walk f (tk_next k) | None => [] end
     | _, _ => []
     end) fuel o = C.
Proof.
  induction C as [|t C IH]; intros fuel o Hc Hf; inversion Hc as [|? k ? Hk Hc']; subst.
  - destruct fuel; reflexivity.
  - destruct fuel as [|f]; [cbn in Hf; lia|]. rewrite Hk. f_equal. apply IH; [exact Hc'|cbn in Hf; lia].
Qed.
Lemma copies_len s C E : tinv s C E -> (length C <= ts_fresh s)%nat.
Proof.
  intros I. rewrite <- (seq_length (ts_fresh s) 0). apply NoDup_incl_length; [apply I|].
  intros t Ht. apply in_seq. destruct (chain_in _ _ _ _ (ti_chain _ _ _ I) Ht) as (k & Hk).
  destruct (le_lt_dec (ts_fresh s) t) as [Hl|Hl]; [rewrite (c_fresh _ _ (ti_core _ _ _ I) t Hl) in Hk; discriminate|lia].
Qed.
Lemma copies_of_chain s C E : tinv s C E -> copies_of s = C.
Proof. intros I. unfold copies_of. apply chain_walk; [apply I|]. eapply copies_len; eauto. Qed.

Lemma step_ok s E o : tinv s (copies_of s) E -> op_ok s (copies_of s) E o ->
  exists s', top_step s o = Ok s' /\ tinv s' (copies_of s') (ext_step s E o).
Proof.
  intros I Hop.
  assert (K : exists s' C', top_step s o = Ok s' /\ tinv s' C' (ext_step s E o)).
  { destruct o as [i d|t|t|i t|i|i esz|i d|i d|i|].
    - destruct (step_new s _ E i d I) as (s' & A & B). eauto.
    - destruct (step_hold s _ E t I Hop) as (s' & A & B). eauto.
    - destruct (step_done s _ E t I Hop) as (s' & A & B). eauto.
    - destruct Hop as (Hi & Hu & Hw). destruct (replace_ok s _ E i (Some t) I Hi (conj Hu Hw)) as (s' & A & B & _). eauto.
    - destruct (replace_ok s _ E i None I Hop Logic.I) as (s' & A & B & _). eauto.
    - destruct (step_init s _ E i esz I) as (s' & A & B). eauto.
    - destruct (step_set s _ E i d I Hop) as (s' & A & B). eauto.
    - destruct (step_value s _ E i d I Hop) as (s' & A & B). eauto.
    - destruct (writable_copy_ok s _ E i I Hop) as (s' & o & C' & A & B & _). exists s', C'. cbn [top_step]. rewrite A. auto.
    - destruct (end_tag_ok _ (ts_fresh s) s E I (copies_len _ _ _ I) Hop) as (s' & A & B & _). eauto. }
  destruct K as (s' & C' & A & B). exists s'. split; [exact A|]. rewrite (copies_of_chain _ _ _ B). exact B.
Qed.

Lemma init_tinv cfg : tinv (tst_init cfg) (copies_of (tst_init cfg)) [].
Proof.
  unfold copies_of, tst_init; cbn. constructor.
  - constructor; cbn; try (intros; discriminate); try (intros; reflexivity); try (intros; contradiction).
    + intros t H. unfold holders, tmpl_holders in H. cbn in H. lia.
    + constructor.
    + lia.
  - constructor.
  - constructor.
  - constructor.
  - reflexivity.
Qed.

Lemma run_ok : forall os s E, tinv s (copies_of s) E -> ok_run s E os ->
  exists s', top_run s os = Ok s' /\ tinv s' (copies_of s') (ext_run s E os).
Proof.
  induction os as [|o r IH]; intros s E I H; cbn [top_run ext_run].
  - exists s. auto.
  - destruct H as (H1 & H2). destruct (step_ok s E o I H1) as (s1 & E1 & I1). rewrite E1. cbn [bind]. apply IH; [exact I1|]. apply H2; exact E1.
Qed.

(** ** No payload is lost: every live payload belongs to a token (or to [X]). *)
Definition owned (s : tst) (X : nat -> Prop) : Prop :=
  forall p d, ts_pay s p = Some d -> (exists t, payload s t = Some p) \/ X p.

Lemma owned_pay_eq s s' X : ts_pay s' = ts_pay s -> (forall t, payload s' t = payload s t) -> owned s X -> owned s' X.
Proof. intros E1 E2 H p d Hp. rewrite E1 in Hp. destruct (H p d Hp) as [(t & Ht)|Hx]; [left; exists t; rewrite E2; exact Ht|right; exact Hx]. Qed.
Lemma payload_set s t k u : payload (set_tok s t (Some k)) u = if Nat.eqb u t then tk_val k else payload s u.
Proof. unfold payload, set_tok; cbn. unfold upd. destruct (Nat.eqb u t); reflexivity. Qed.
Lemma owned_same_val s X t k k' : ts_tok s t = Some k -> tk_val k' = tk_val k -> owned s X -> owned (set_tok s t (Some k')) X.
Proof.
  intros E1 E2. apply owned_pay_eq; [reflexivity|]. intros u. rewrite payload_set. destruct (Nat.eqb_spec u t); [subst|reflexivity].
  unfold payload. rewrite E1. exact E2.
Qed.
Lemma owned_write s X t f s' : (forall k, tk_val (f k) = tk_val k) -> write_tok s t f = Ok s' -> owned s X -> owned s' X.
Proof.
  intros Hf E. unfold write_tok, get_tok in E. destruct (ts_tok s t) as [k|] eqn:Ek; [|discriminate]. cbn in E. injection E as <-.
  apply (owned_same_val s X t k); [exact Ek|apply Hf].
Qed.
Lemma owned_free_value s X t s' : free_token_value s t = Ok s' -> owned s X -> owned s' X /\ payload s' t = None /\ ts_bin s' = ts_bin s.
Proof.
  unfold free_token_value, get_tok. destruct (ts_tok s t) as [k|] eqn:Ek; [|discriminate]. cbn [bind]. intros E H.
  destruct (tk_val k) as [p|] eqn:Ev.
  - destruct (ts_pay s p) eqn:Ep; [|discriminate]. injection E as <-. split; [|split; [|reflexivity]].
    + intros q d Hq. cbn in Hq. destruct (Nat.eq_dec q p) as [->|N]; [rewrite upd_eq in Hq; discriminate|]. rewrite upd_neq in Hq by exact N.
      destruct (H q d Hq) as [(u & Hu)|Hx]; [|right; exact Hx]. left. exists u. rewrite payload_set. cbn. destruct (Nat.eqb_spec u t); [|exact Hu].
      subst u. unfold payload in Hu. rewrite Ek in Hu. congruence.
    + rewrite payload_set, Nat.eqb_refl. reflexivity.
  - injection E as <-. split; [exact H|]. split; [unfold payload; rewrite Ek; exact Ev|reflexivity].
Qed.
Lemma owned_done s X o s' r : done_using s o = Ok (s', r) -> owned s X -> owned s' X.
Proof.
  intros E H. destruct o as [t|]; [|injection E as <- _; exact H]. unfold done_using, get_tok in E.
  destruct (ts_tok s t) as [k|] eqn:Ek; [|discriminate]. cbn [bind] in E. destruct (tk_ref k =? 0); [injection E as <- _; exact H|].
  assert (H1 : owned (set_tok s t (Some (with_ref k (tk_ref k - 1)))) X) by (apply (owned_same_val s X t k); [exact Ek|reflexivity|exact H]).
  set (s1 := set_tok s t _) in *. unfold free_token, get_tok in E. destruct (ts_tok s1 t) as [k1|]; [|discriminate]. cbn [bind] in E.
  destruct (0 <? tk_ref k1); [injection E as <- _; exact H1|].
  destruct (free_token_value s1 t) as [s2|] eqn:E2; [|discriminate]. cbn [bind] in E. injection E as <- _.
  destruct (owned_free_value s1 X t s2 E2 H1) as (H2 & Hn & _).
  destruct (length (ts_bin s2) <? BIN_LIMIT)%nat.
  - destruct (mem t (ts_bin s2)); [exact H2|]. exact H2.
  - intros p d Hp. destruct (H2 p d Hp) as [(u & Hu)|Hx]; [|right; exact Hx]. left. exists u. unfold payload, set_tok; cbn.
    destruct (Nat.eq_dec u t) as [->|N]; [congruence|]. rewrite upd_neq by exact N. exact Hu.
Qed.
Lemma owned_new s c X i v len s' t : core s c -> new_token s i v len = Ok (s', t) -> owned s X ->
  owned s' (fun p => X p /\ v <> Some p).
Proof.
  intros I E H.
  assert (K : ts_pay s' = ts_pay s /\ payload s' t = v /\ payload s t = None /\ forall u, u <> t -> payload s' u = payload s u).
  { unfold new_token in E. destruct (ts_bin s) as [|b0 b] eqn:Eb.
    - injection E as <- <-. split; [reflexivity|]. unfold payload; cbn. rewrite upd_eq. rewrite (c_fresh _ _ I) by lia.
      split; [reflexivity|]. split; [reflexivity|]. intros u Hu. rewrite upd_neq by exact Hu. reflexivity.
    - destruct (c_bin _ _ I b0) as (k & Ek & _ & Ev & _); [rewrite Eb; left; reflexivity|]. unfold get_tok in E. rewrite Ek in E. cbn [bind] in E.
      injection E as <- <-. split; [reflexivity|]. unfold payload; cbn. rewrite upd_eq, Ek.
      split; [reflexivity|]. split; [exact Ev|]. intros u Hu. rewrite upd_neq by exact Hu. reflexivity. }
  destruct K as (K1 & K2 & K3 & K4). intros p d Hp. rewrite K1 in Hp. destruct (H p d Hp) as [(u & Hu)|Hx].
  - left. exists u. rewrite K4; [exact Hu|]. intros ->. congruence.
  - destruct v as [q|]; [|right; split; [exact Hx|discriminate]].
    destruct (Nat.eq_dec q p) as [->|N]; [left; exists t; exact K2|right; split; [exact Hx|congruence]].
Qed.
Lemma owned_weak s (X Y : nat -> Prop) : (forall p, X p -> Y p) -> owned s X -> owned s Y.
Proof. intros H1 H2 p d Hp. destruct (H2 p d Hp) as [Hl|Hr]; [left; exact Hl|right; apply H1; exact Hr]. Qed.
Lemma owned_get_token s c X i s' r : core s c -> get_token s i = Ok (s', r) -> owned s X ->
  owned s' X /\ payload s' r = None.
Proof.
  intros I E H. unfold get_token in E.
  assert (Fresh : (do! r <- new_token s i None 0; do! s2 <- write_tok (fst r) (snd r) (fun k => with_ref k 1); Ok (s2, snd r)) = Ok (s', r) ->
    owned s' X /\ payload s' r = None).
  { intros E'. destruct (new_token_ok s c i None 0 I Logic.I) as (s1 & old & E1 & _ & _ & Et & _). rewrite E1 in E'. cbn [bind fst snd] in E'.
    pose proof (owned_new s c X i None 0 s1 _ I E1 H) as H1.
    unfold write_tok, get_tok in E'. rewrite Et in E'. cbn [bind] in E'. injection E' as <- <-. split.
    - eapply owned_weak; [|eapply owned_same_val; [exact Et|reflexivity|exact H1]]. intros p (A & _); exact A.
    - rewrite payload_set, Nat.eqb_refl. reflexivity. }
  destruct (tp_tok (ts_tmpl s i)) as [t|]; [|exact (Fresh E)].
  unfold get_tok at 1 in E. destruct (ts_tok s t) as [k|] eqn:Ek; [|discriminate]. cbn [bind] in E.
  destruct (tk_ref k =? 1); [|exact (Fresh E)].
  destruct (free_token_value s t) as [s1|] eqn:E1; [|discriminate]. cbn [bind] in E. injection E as <- <-.
  destruct (owned_free_value s X t s1 E1 H) as (A & B & _). auto.
Qed.
Lemma owned_init_value s c X i p len s' r : core s c -> initialize_token_with_value s i p len = Ok (s', r) -> owned s X ->
  owned s' (fun q => X q /\ q <> p).
Proof.
  intros I E H. unfold initialize_token_with_value in E. destruct (get_token s i) as [[s1 r1]|] eqn:E1; [|discriminate]. cbn [bind fst snd] in E.
  destruct (owned_get_token s c X i s1 r1 I E1 H) as (H1 & Hn). unfold write_tok, get_tok in E.
  destruct (ts_tok s1 r1) as [k|] eqn:Ek; [|discriminate]. cbn [bind] in E. injection E as <- <-.
  intros q d Hq. destruct (Nat.eq_dec q p) as [->|N].
  - left. exists r1. rewrite payload_set, Nat.eqb_refl. reflexivity.
  - destruct (H1 q d Hq) as [(u & Hu)|Hx]; [|right; auto]. left. exists u. rewrite payload_set. destruct (Nat.eqb_spec u r1); [subst; congruence|exact Hu].
Qed.
Lemma owned_alloc s c d X : core s c -> owned s X -> owned (fst (alloc_pay s d)) (fun p => X p \/ p = snd (alloc_pay s d)).
Proof.
  intros I H p x Hp. cbn in Hp. destruct (Nat.eq_dec p (ts_pfresh s)) as [->|N]; [right; right; reflexivity|]. rewrite upd_neq in Hp by exact N.
  destruct (H p x Hp) as [Hl|Hr]; [left; exact Hl|right; left; exact Hr].
Qed.
Lemma owned_end : forall fuel s s' X, free_token_copies fuel s = Ok s' -> owned s X -> owned s' X.
Proof.
  induction fuel as [|f IH]; intros s s' X E H; cbn [free_token_copies] in E; destruct (ts_list s) as [t|]; try discriminate; try (injection E as <-; exact H).
  destruct (done_using s (Some t)) as [[s1 r]|] eqn:E1; [|discriminate]. cbn [bind fst] in E.
  pose proof (owned_done s X (Some t) s1 r E1 H) as H1. destruct (get_tok s1 t) as [k|]; [|discriminate]. cbn [bind] in E.
  eapply IH; [exact E|]. exact H1.
Qed.

Definition nothing : nat -> Prop := fun _ => False.
Lemma owned_init_fresh s C E i esz s' : tinv s C E -> init_fresh s i esz = Ok s' -> owned s nothing -> owned s' nothing.
Proof.
  intros I E1 H. unfold init_fresh in E1. set (s0 := set_tmpl s i _) in *.
  assert (I0 : tinv s0 C E).
  { eapply tinv_ext; [..|exact I]; try reflexivity. intros j. unfold s0, set_tmpl; cbn. unfold upd. destruct (Nat.eqb_spec j i); [subst j; reflexivity|reflexivity]. }
  destruct (new_token s0 i None 0) as [[s1 t]|] eqn:E2; [|discriminate]. cbn [bind fst snd] in E1.
  pose proof (owned_new s0 _ nothing i None 0 s1 t (ti_core _ _ _ I0) E2 H) as H1.
  eapply owned_write; [|exact E1|]; [reflexivity|]. eapply owned_weak; [|exact H1]. intros p (A & _); exact A.
Qed.

Lemma owned_step s E o s' : tinv s (copies_of s) E -> top_step s o = Ok s' -> owned s nothing -> owned s' nothing.
Proof.
  intros I E1 H. pose proof (ti_core _ _ _ I) as Ic. destruct o as [i d|t|t|i t|i|i esz|i d|i d|i|]; cbn [top_step] in E1.
  - pose proof (owned_alloc s _ d nothing Ic H) as H0. pose proof (alloc_pay_ok s _ d Ic) as (Ic0 & _). destruct (alloc_pay s d) as [s0 p]. cbn [fst snd] in *.
    destruct (new_token s0 i (Some p) (Z.of_nat (length d))) as [[s1 t]|] eqn:E2; [|discriminate]. cbn in E1. injection E1 as <-.
    eapply owned_weak; [|exact (owned_new s0 _ _ i _ _ s1 t Ic0 E2 H0)]. intros q ([[]| ->] & B). congruence.
  - eapply owned_write; [|exact E1|exact H]; reflexivity.
  - destruct (done_using s (Some t)) as [[s1 r]|] eqn:E2; [|discriminate]. cbn in E1. injection E1 as <-. eapply owned_done; eauto.
  - unfold replace_template_token in E1. destruct (opt_eqb _ _); [injection E1 as <-; exact H|].
    destruct (done_using s _) as [[s1 r]|] eqn:E2; [|discriminate]. cbn [bind fst] in E1. pose proof (owned_done _ _ _ _ _ E2 H) as H1.
    destruct (write_tok s1 t _) as [s2|] eqn:E3; [|discriminate]. cbn in E1. injection E1 as <-.
    assert (X : owned s2 nothing); [|exact X]. eapply owned_write; [|exact E3|exact H1]; reflexivity.
  - unfold replace_template_token in E1. destruct (opt_eqb _ _); [injection E1 as <-; exact H|].
    destruct (done_using s _) as [[s1 r]|] eqn:E2; [|discriminate]. cbn [bind fst] in E1. pose proof (owned_done _ _ _ _ _ E2 H) as H1.
    injection E1 as <-. exact H1.
  - unfold initialize_template in E1. 
    set (s0 := if mem i (ts_reg s) then s else set_reg s (i :: ts_reg s)) in *.
    assert (H0 : owned s0 nothing) by (unfold s0; destruct (mem i (ts_reg s)); exact H).
    assert (I0 : tinv s0 (copies_of s) E).
    { unfold s0. destruct (mem i (ts_reg s)) eqn:Em; [exact I|]. apply mem_nIn in Em. constructor; try apply I.
      - eapply core_irrel; [..|eapply core_ext; [|exact (ti_core _ _ _ I)]]; try reflexivity. intros u. unfold holders, tmpl_holders, set_reg; cbn.
        rewrite (ti_unreg _ _ _ I i Em). reflexivity.
      - cbn. constructor; [exact Em|apply I].
      - intros j Hj. cbn in Hj |- *. apply (ti_unreg _ _ _ I). intros Hx; apply Hj; right; exact Hx. }
    assert (Hi : In i (ts_reg s0)) by (unfold s0; destruct (mem i (ts_reg s)) eqn:Em; [apply mem_In; exact Em|left; reflexivity]).
    clearbody s0. destruct (tp_tok (ts_tmpl s0 i)) as [t|] eqn:Et.
    + unfold get_tok at 1 in E1. destruct (ts_tok s0 t) as [k|]; [|discriminate]. cbn [bind] in E1.
      destruct ((tk_ref k =? 1) && _).
      * destruct (free_token_value s0 t) as [s1|] eqn:E2; [|discriminate]. cbn [bind] in E1. destruct (owned_free_value _ _ _ _ E2 H0) as (H1 & _).
        eapply owned_write; [|exact E1|exact H1]; reflexivity.
      * pose proof (drop_tmpl s0 _ E i I0 Hi) as (s1 & r & Ed & F & I1 & _). rewrite Et in Ed. rewrite Ed in E1. cbn [bind fst] in E1.
        pose proof (owned_done _ _ _ _ _ Ed H0) as H1. eapply (owned_init_fresh (tmpl_set_tok s1 i None)); [exact I1|exact E1|exact H1].
    + eapply (owned_init_fresh s0); [exact I0| |exact H0]. unfold init_fresh. rewrite Et. exact E1.
  - pose proof (owned_alloc s _ d nothing Ic H) as H0. pose proof (alloc_pay_ok s _ d Ic) as (Ic0 & _). destruct (alloc_pay s d) as [s0 p]. cbn [fst snd] in *.
    destruct (initialize_token_with_value s0 i p _) as [[s1 t]|] eqn:E2; [|discriminate]. cbn in E1. injection E1 as <-.
    assert (X : owned s1 nothing); [|exact X].
    eapply owned_weak; [|exact (owned_init_value s0 _ _ i p _ s1 t Ic0 E2 H0)]. intros q ([[]| ->] & B). congruence.
  - pose proof (owned_alloc s _ d nothing Ic H) as H0. pose proof (alloc_pay_ok s _ d Ic) as (Ic0 & _). destruct (alloc_pay s d) as [s0 p]. cbn [fst snd] in *.
    destruct (initialize_token_with_value s0 i p _) as [[s1 t]|] eqn:E2; [|discriminate]. cbn in E1. injection E1 as <-.
    eapply owned_weak; [|exact (owned_init_value s0 _ _ i p _ s1 t Ic0 E2 H0)]. intros q ([[]| ->] & B). congruence.
  - unfold writable_copy in E1. destruct (tp_tok (ts_tmpl s i)) as [t|]; [|cbn in E1; injection E1 as <-; exact H].
    unfold get_tok at 1 in E1. destruct (ts_tok s t) as [k|]; [|discriminate]. cbn [bind] in E1.
    destruct (_ && _) in E1; [cbn in E1; injection E1 as <-; exact H|]. destruct (_ && _) in E1; [cbn in E1; injection E1 as <-; exact H|].
    unfold copy_payload in E1. destruct (tk_val k) as [q|]; [|discriminate]. destruct (ts_pay s q) as [d|]; [|discriminate].
    destruct (_ <=? _) in E1; [|discriminate]. cbn [bind] in E1. set (d1 := firstn _ d) in *.
    pose proof (owned_alloc s _ d1 nothing Ic H) as H0. pose proof (alloc_pay_ok s _ d1 Ic) as (Ic0 & _). destruct (alloc_pay s d1) as [s0 p]. cbn [fst snd] in *.
    destruct (new_token s0 i (Some p) (tk_len k)) as [[s1 t1]|] eqn:E2; [|discriminate]. cbn [bind fst snd] in E1.
    destruct (write_tok s1 t1 _) as [s2|] eqn:E3; [|discriminate]. cbn in E1. injection E1 as <-.
    assert (X : owned s2 nothing); [|exact X]. eapply owned_write; [|exact E3|]; [reflexivity|].
    eapply owned_weak; [|exact (owned_new s0 _ _ i _ _ s1 t1 Ic0 E2 H0)]. intros x ([[]| ->] & B). congruence.
  - eapply owned_end; eauto.
Qed.
Lemma owned_run : forall os s E s', tinv s (copies_of s) E -> ok_run s E os -> top_run s os = Ok s' -> owned s nothing -> owned s' nothing.
Proof.
  induction os as [|o r IH]; intros s E s' I Hok Hr H; cbn [top_run] in Hr; [injection Hr as <-; exact H|].
  destruct Hok as (H1 & H2). destruct (step_ok s E o I H1) as (s1 & E1 & I1). rewrite E1 in Hr. cbn [bind] in Hr.
  eapply IH; [exact I1|apply H2; exact E1|exact Hr|]. exact (owned_step s E o s1 I E1 H).
Qed.

(** ** _lf_free_all_tokens *)
Definition all_held (s : tst) (C E : list nat) : Prop := forall t, usable s t -> (0 < holders s C E t)%nat.

Lemma release_ok : forall l s, tinv s [] [] -> incl l (ts_reg s) -> all_held s [] [] -> owned s nothing ->
  exists s', release_templates l s = Ok s' /\ tinv s' [] [] /\ ts_reg s' = ts_reg s /\ all_held s' [] [] /\ owned s' nothing /\
    forall i, (In i l \/ tp_tok (ts_tmpl s i) = None) -> tp_tok (ts_tmpl s' i) = None.
Proof.
  induction l as [|i l IH]; intros s I Hl Ha Hw.
  - exists s. split; [reflexivity|]. split; [exact I|]. split; [reflexivity|]. split; [exact Ha|]. split; [exact Hw|]. intros j [[]|Hj]; exact Hj.
  - assert (Hi : In i (ts_reg s)) by (apply Hl; left; reflexivity).
    destruct (drop_tmpl s [] [] i I Hi) as (s1 & r & E1 & F & I1 & Oth). cbn [release_templates]. rewrite E1. cbn [bind fst].
    destruct F as (F1 & F2 & F3 & F4 & F5).
    assert (Hu : all_held (tmpl_set_tok s1 i None) [] []).
    { intros u Hu. assert (Hu1 : usable s1 u) by exact Hu.
      destruct (tp_tok (ts_tmpl s i)) as [t|] eqn:Et.
      - pose proof (holders_T s [] [] i t Hi Et) as Hpos.
        destruct (done_using_ok s _ t (ti_core _ _ _ I) Hpos) as (s1' & E1' & _ & _ & Ho & Hb & _ & k & Ek & H2 & H1).
        rewrite E1 in E1'. injection E1' as <- _.
        pose proof (tmpl_holders_set s1 i None u) as K. rewrite F2, F3, Et, (tmpl_holders_frame s s1 u F2 F3) in K.
        specialize (K (ti_ndreg _ _ _ I) Hi). unfold holders in *. cbn [count_occ] in *.
        destruct (Nat.eq_dec u t) as [->|N].
        + rewrite has_self in K. cbn [has] in K. destruct (Nat.eq_dec (tmpl_holders s t) 1) as [E0|N0]; [|lia].
          exfalso. destruct H1 as (_ & _ & Hnu & _); [lia|]. exact (Hnu Hu1).
        + rewrite has_other in K by congruence. cbn [has] in K. assert (Hs : usable s u) by (destruct Hu1 as (A & B); rewrite (Ho u N) in A; rewrite (Hb u N) in B; split; assumption).
          specialize (Ha u Hs). unfold holders in Ha. cbn [count_occ] in Ha. lia.
      - cbn [done_using] in E1. injection E1 as <- _. specialize (Ha u Hu1). unfold holders in *. cbn [count_occ] in *.
        pose proof (tmpl_holders_set s i None u (ti_ndreg _ _ _ I) Hi) as K. rewrite Et in K. cbn [has] in K. lia. }
    destruct (IH (tmpl_set_tok s1 i None) I1) as (s2 & E2 & I2 & R2 & A2 & W2 & T2).
    + intros j Hj. cbn. rewrite F2. apply Hl. right; exact Hj.
    + exact Hu.
    + exact (owned_done _ _ _ _ _ E1 Hw).
    + exists s2. split; [exact E2|]. split; [exact I2|]. split; [rewrite R2; cbn; exact F2|]. split; [exact A2|]. split; [exact W2|].
      intros j Hj. apply T2. destruct (Nat.eq_dec j i) as [->|N]; [right; cbn; rewrite upd_eq; reflexivity|].
      destruct Hj as [[<-|Hj]|Hj]; [contradiction|left; exact Hj|]. right. cbn. rewrite upd_neq by exact N. rewrite F3. exact Hj.
Qed.

Lemma free_binned_ok : forall l s, NoDup l -> (forall t, In t l -> ts_tok s t <> None) ->
  exists s', free_binned l s = Ok s' /\ (forall t, In t l -> ts_tok s' t = None) /\ (forall t, ~ In t l -> ts_tok s' t = ts_tok s t) /\ ts_pay s' = ts_pay s.
Proof.
  induction l as [|t l IH]; intros s Hnd Hl.
  - exists s. split; [reflexivity|]. split; [intros t []|]. split; reflexivity.
  - inversion Hnd; subst. cbn [free_binned]. unfold get_tok. destruct (ts_tok s t) as [k|] eqn:Ek; [|exfalso; apply (Hl t); [left; reflexivity|exact Ek]].
    cbn [bind]. destruct (IH (set_tok s t None)) as (s' & E1 & A & B & D); [assumption| |].
    + intros u Hu. cbn. rewrite upd_neq by (intros ->; contradiction). apply Hl. right; exact Hu.
    + exists s'. split; [exact E1|]. split.
      * intros u [<-|Hu]; [|apply A; exact Hu]. rewrite B by assumption. cbn. apply upd_eq.
      * split; [|exact D]. intros u Hu. rewrite B by (intros Hx; apply Hu; right; exact Hx). cbn. apply upd_neq. intros ->. apply Hu. left; reflexivity.
Qed.

Lemma tcount_none reg f t : (forall i, In i reg -> f i = None) -> tcount reg f t = 0%nat.
Proof.
  induction reg as [|i r IH]; intros H; [reflexivity|]. cbn [tcount fold_right]. rewrite (H i) by (left; reflexivity).
  change (fold_right (fun i0 n => (has (f i0) t + n)%nat) 0%nat r) with (tcount r f t). rewrite IH; [reflexivity|]. intros j Hj; apply H; right; exact Hj.
Qed.

Lemma free_all_ok s : tinv s [] [] -> all_held s [] [] -> owned s nothing ->
  exists s', free_all_tokens s = Ok s' /\ (forall t, ts_tok s' t = None) /\ (forall p, ts_pay s' p = None).
Proof.
  intros I Ha Hw. unfold free_all_tokens.
  destruct (release_ok (ts_reg s) s I (fun x H => H) Ha Hw) as (s1 & -> & I1 & R1 & A1 & W1 & T1). cbn [bind].
  assert (Hz : forall t, holders s1 [] [] t = 0%nat).
  { intros t. unfold holders, tmpl_holders. rewrite tcount_none; [reflexivity|]. intros i Hi. apply T1. left. rewrite R1 in Hi. exact Hi. }
  assert (Hb : forall t, ts_tok s1 t <> None -> In t (ts_bin s1)).
  { intros t Ht. destruct (in_dec Nat.eq_dec t (ts_bin s1)) as [Hi|Hi]; [exact Hi|]. specialize (A1 t (conj Ht Hi)). rewrite Hz in A1. lia. }
  destruct (free_binned_ok (ts_bin s1) s1) as (s2 & -> & F1 & F2 & F3); [apply I1| |].
  - intros t Ht. destruct (c_bin _ _ (ti_core _ _ _ I1) t Ht) as (k & Ek & _). congruence.
  - cbn [bind]. eexists. split; [reflexivity|]. cbn [set_bin set_reg ts_tok ts_pay]. split.
    + intros t. destruct (in_dec Nat.eq_dec t (ts_bin s1)) as [Hi|Hi]; [apply F1; exact Hi|]. rewrite F2 by exact Hi.
      destruct (ts_tok s1 t) eqn:Et; [|reflexivity]. exfalso. apply Hi. apply Hb. congruence.
    + intros p. rewrite F3. destruct (ts_pay s1 p) as [d|] eqn:Ep; [|reflexivity]. exfalso.
      destruct (W1 p d Ep) as [(t & Ht)|[]]. unfold payload in Ht. destruct (ts_tok s1 t) as [k|] eqn:Ek; [|discriminate].
      destruct (c_bin _ _ (ti_core _ _ _ I1) t) as (k' & Ek' & _ & Ev & _); [apply Hb; congruence|]. congruence.
Qed.

(** ** A payload goes away only with the last reference, or when the template's own,
    otherwise unreferenced token is reused for a new value. *)
Definition reuses (o : top) (i : nat) : Prop :=
  match o with OSet j _ | OValue j _ | OInit j _ => j = i | _ => False end.

Lemma done_keeps s c t s' r u p : core s c -> (0 < c t)%nat -> done_using s (Some t) = Ok (s', r) -> payload s u = Some p ->
  payload s' u = Some p \/ (u = t /\ c t = 1%nat).
Proof.
  intros I Hc E Hp. destruct (done_using_ok s c t I Hc) as (s1 & E1 & _ & _ & Ho & _ & _ & k & Ek & H2 & H1).
  rewrite E in E1. injection E1 as <- _. destruct (Nat.eq_dec u t) as [->|N].
  - destruct (Nat.eq_dec (c t) 1) as [E0|N0]; [right; auto|]. left. destruct H2 as (E2 & _); [lia|].
    unfold payload in *. rewrite E2. rewrite Ek in Hp. exact Hp.
  - left. unfold payload in *. rewrite (Ho u N). exact Hp.
Qed.
Lemma new_keeps s c i v len s' n u p : core s c -> good_val s v len -> new_token s i v len = Ok (s', n) -> payload s u = Some p -> payload s' u = Some p /\ u <> n.
Proof.
  intros I Hg E Hp. destruct (new_token_ok s c i v len I Hg) as (s1 & old & E1 & _ & _ & _ & _ & Ho & _ & _ & _ & _ & _ & _ & _ & _ & Hus).
  rewrite E in E1. injection E1 as <- ->. assert (N : u <> next_token s).
  { intros ->. unfold payload in Hp. destruct (ts_tok s (next_token s)) as [k|] eqn:Ek; [|discriminate].
    destruct (in_dec Nat.eq_dec (next_token s) (ts_bin s)) as [Hb|Hb].
    - destruct (c_bin _ _ I _ Hb) as (k' & Ek' & _ & Ev & _). congruence.
    - apply Hus. split; [congruence|exact Hb]. }
  split; [|exact N]. unfold payload in *. rewrite (Ho u N). exact Hp.
Qed.
Lemma write_keeps s t f s' u p : (forall k, tk_val (f k) = tk_val k) -> write_tok s t f = Ok s' -> payload s u = Some p -> payload s' u = Some p.
Proof.
  intros Hf E Hp. unfold write_tok, get_tok in E. destruct (ts_tok s t) as [k|] eqn:Ek; [|discriminate]. cbn in E. injection E as <-.
  rewrite payload_set. destruct (Nat.eqb_spec u t); [subst|exact Hp]. rewrite Hf. unfold payload in Hp. rewrite Ek in Hp. exact Hp.
Qed.
Lemma alloc_keeps s d u : payload (fst (alloc_pay s d)) u = payload s u.
Proof. reflexivity. Qed.

Lemma done_tmpl s o s' r : done_using s o = Ok (s', r) -> ts_reg s' = ts_reg s /\ ts_tmpl s' = ts_tmpl s.
Proof.
  intros E. destruct o as [t|]; [|injection E as <- _; auto]. unfold done_using, get_tok in E.
  destruct (ts_tok s t) as [k|] eqn:Ek; [|discriminate]. cbn [bind] in E. destruct (tk_ref k =? 0); [injection E as <- _; auto|].
  set (s1 := set_tok s t _) in *. assert (H1 : ts_reg s1 = ts_reg s /\ ts_tmpl s1 = ts_tmpl s) by (split; reflexivity). clearbody s1.
  unfold free_token, free_token_value, get_tok in E. destruct (ts_tok s1 t) as [k1|]; [|discriminate]. cbn [bind] in E.
  destruct (0 <? tk_ref k1); [injection E as <- _; exact H1|].
  assert (K : exists s2, (ts_reg s2 = ts_reg s /\ ts_tmpl s2 = ts_tmpl s) /\ s' = (if (length (ts_bin s2) <? BIN_LIMIT)%nat
                then if mem t (ts_bin s2) then s2 else set_bin s2 (t :: ts_bin s2)
                else set_tok s2 t None)).
  { destruct (tk_val k1) as [p|].
    - destruct (ts_pay s1 p); [|discriminate]. cbn [bind] in E. injection E as <- _. exists (set_tok (set_pay s1 p None) t (Some (with_val k1 None))). split; [exact H1|reflexivity].
    - cbn [bind] in E. injection E as <- _. exists s1. split; [exact H1|reflexivity]. }
  destruct K as (s2 & H2 & ->). destruct (_ <? _)%nat; [destruct (mem t (ts_bin s2))|]; exact H2.
Qed.
Lemma end_tmpl : forall fuel s s', free_token_copies fuel s = Ok s' -> ts_reg s' = ts_reg s /\ ts_tmpl s' = ts_tmpl s.
Proof.
  induction fuel as [|f IH]; intros s s' E; cbn [free_token_copies] in E; destruct (ts_list s) as [t|]; try discriminate; try (injection E as <-; auto; fail).
  destruct (done_using s (Some t)) as [[s1 r]|] eqn:E1; [|discriminate]. cbn [bind fst] in E. apply done_tmpl in E1. destruct E1 as (A & B).
  destruct (get_tok s1 t) as [k|]; [|discriminate]. cbn [bind] in E. apply IH in E. cbn in E. destruct E as (D & F). split; congruence.
Qed.

Lemma end_keeps : forall C fuel s s' E u p, tinv s C E -> (length (ts_bin s) + length C <= BIN_LIMIT)%nat -> free_token_copies fuel s = Ok s' ->
  payload s u = Some p -> payload s' u = Some p \/ holders s' [] E u = 0%nat.
Proof.
  induction C as [|t C IH]; intros fuel s s' E u p I Hb Er Hp.
  - pose proof (ti_chain _ _ _ I) as Hc. inversion Hc as [Hn|]; subst. destruct fuel; cbn in Er; rewrite <- Hn in Er; injection Er as <-; auto.
  - pose proof (end_tmpl _ _ _ Er) as Htm.
    pose proof (ti_chain _ _ _ I) as Hc. inversion Hc as [|? k ? Ek Hc' Hl]; subst.
    destruct fuel as [|f]; [cbn in Er; rewrite <- Hl in Er; discriminate|]. cbn [free_token_copies] in Er. rewrite <- Hl in Er.
    assert (Hpos : (0 < holders s (t :: C) E t)%nat) by (apply holders_C; left; reflexivity).
    destruct (done_using_ok s _ t (ti_core _ _ _ I) Hpos) as (s1 & E1 & Ic & (F1 & F2 & F3 & F4 & F5) & Ho & _ & Hlen & k' & Ek' & H2 & H1).
    rewrite E1 in Er. cbn [bind fst] in Er.
    rewrite Ek in Ek'. injection Ek' as <-.
    pose proof (ti_ndC _ _ _ I) as Hnd. inversion Hnd as [|? ? HnC HndC]; subst.
    assert (En : exists k1, ts_tok s1 t = Some k1 /\ tk_next k1 = tk_next k).
    { destruct (Nat.eq_dec (holders s (t :: C) E t) 1) as [Eo|No].
      - destruct (H1 Eo) as (_ & _ & _ & Hroom & _). destruct Hroom as (-> & _); [cbn [length] in Hb; lia|]. eexists; split; reflexivity.
      - destruct H2 as (-> & _); [lia|]. eexists; split; reflexivity. }
    destruct En as (k1 & Ek1 & En). unfold get_tok in Er. rewrite Ek1 in Er. cbn [bind] in Er.
    assert (I1 : tinv (set_list s1 (tk_next k1)) C E).
    { constructor.
      + eapply core_irrel; [..|eapply core_ext; [|exact Ic]]; try reflexivity.
        intros w. unfold dec, holders. rewrite (tmpl_holders_frame s (set_list s1 (tk_next k1)) w F2 F3). cbn [count_occ].
        destruct (Nat.eqb_spec w t) as [->|N]; [destruct (Nat.eq_dec t t); [lia|contradiction]|]. destruct (Nat.eq_dec t w); [congruence|reflexivity].
      + cbn [set_list ts_tok ts_list]. rewrite En. eapply chain_same; [exact Hc'|]. intros w Hw. apply Ho. intros ->. contradiction.
      + exact HndC.
      + cbn. rewrite F2. apply I.
      + intros j. cbn. rewrite F2, F3. apply I. }
    assert (Hb1 : (length (ts_bin (set_list s1 (tk_next k1))) + length C <= BIN_LIMIT)%nat) by (cbn [set_list ts_bin]; cbn [length] in Hb; lia).
    destruct (done_keeps s _ t s1 _ u p (ti_core _ _ _ I) Hpos E1 Hp) as [Hk|(-> & Hone)].
    + exact (IH f _ s' E u p I1 Hb1 Er Hk).
    + right. destruct Htm as (Hr & Hm). unfold holders in *. rewrite (tmpl_holders_frame s s' t Hr) by (intros i; rewrite Hm; reflexivity).
      cbn [count_occ] in *. destruct (Nat.eq_dec t t); [lia|contradiction].
Qed.

Lemma get_token_keeps s C E i s' r u p : tinv s C E -> get_token s i = Ok (s', r) -> payload s u = Some p ->
  payload s' u = Some p /\ u <> r \/ (holders s C E u = 1%nat /\ tp_tok (ts_tmpl s i) = Some u).
Proof.
  intros I E1 Hp. unfold get_token in E1.
  assert (Fresh : (do! r <- new_token s i None 0; do! s2 <- write_tok (fst r) (snd r) (fun k => with_ref k 1); Ok (s2, snd r)) = Ok (s', r) -> payload s' u = Some p /\ u <> r).
  { intros E'. destruct (new_token s i None 0) as [[s1 n]|] eqn:E2; [|discriminate]. cbn [bind fst snd] in E'.
    destruct (new_keeps s _ i None 0 s1 n u p (ti_core _ _ _ I) Logic.I E2 Hp) as (A & B).
    destruct (write_tok s1 n _) as [s2|] eqn:E3; [|discriminate]. cbn [bind] in E'. injection E' as <- <-.
    split; [|exact B]. eapply write_keeps; [|exact E3|exact A]. reflexivity. }
  pose proof (reusable_spec s C E i I) as HR.
  destruct (tp_tok (ts_tmpl s i)) as [t|]; [|left; exact (Fresh E1)].
  destruct HR as (k & Ek & Hb & _ & Er & _). unfold get_tok at 1 in E1. rewrite Ek in E1. cbn [bind] in E1.
  destruct (Z.eqb_spec (tk_ref k) 1) as [E0|N0]; [|left; exact (Fresh E1)].
  destruct (free_value_tinv s C E t k I Ek) as (s1 & E2 & _ & _ & _ & _ & Ho & _). rewrite E2 in E1. cbn [bind] in E1. injection E1 as <- <-.
  destruct (Nat.eq_dec u t) as [->|N]; [right; split; [lia|reflexivity]|]. left. split; [|exact N]. unfold payload in *. rewrite (Ho u N). exact Hp.
Qed.
Lemma init_value_keeps s C E i q len s' r u p : tinv s C E -> initialize_token_with_value s i q len = Ok (s', r) -> payload s u = Some p ->
  payload s' u = Some p \/ (holders s C E u = 1%nat /\ tp_tok (ts_tmpl s i) = Some u).
Proof.
  intros I E1 Hp. unfold initialize_token_with_value in E1. destruct (get_token s i) as [[s1 r1]|] eqn:E2; [|discriminate]. cbn [bind fst snd] in E1.
  destruct (get_token_keeps s C E i s1 r1 u p I E2 Hp) as [(A & B)|A]; [|right; exact A]. left.
  unfold write_tok, get_tok in E1. destruct (ts_tok s1 r1) as [k|]; [|discriminate]. cbn [bind] in E1. injection E1 as <- <-.
  rewrite payload_set. destruct (Nat.eqb_spec u r1); [contradiction|exact A].
Qed.
Lemma init_fresh_keeps s C E i esz s' u p : tinv s C E -> init_fresh s i esz = Ok s' -> payload s u = Some p -> payload s' u = Some p.
Proof.
  intros I E1 Hp. unfold init_fresh in E1. set (s0 := set_tmpl s i _) in *.
  assert (I0 : tinv s0 C E).
  { eapply tinv_ext; [..|exact I]; try reflexivity. intros j. unfold s0, set_tmpl; cbn. unfold upd. destruct (Nat.eqb_spec j i); [subst j; reflexivity|reflexivity]. }
  destruct (new_token s0 i None 0) as [[s1 n]|] eqn:E2; [|discriminate]. cbn [bind fst snd] in E1.
  destruct (new_keeps s0 _ i None 0 s1 n u p (ti_core _ _ _ I0) Logic.I E2 Hp) as (A & B).
  eapply write_keeps; [|exact E1|exact A]. reflexivity.
Qed.

Lemma step_keeps s E o s' u p : tinv s (copies_of s) E -> op_ok s (copies_of s) E o -> top_step s o = Ok s' -> payload s u = Some p ->
  payload s' u = Some p \/ holders s' (copies_of s') (ext_step s E o) u = 0%nat \/
  (holders s (copies_of s) E u = 1%nat /\ exists i, tp_tok (ts_tmpl s i) = Some u /\ reuses o i).
Proof.
  intros I Hop E1 Hp. pose proof (ti_core _ _ _ I) as Ic.
  destruct o as [i d|t|t|i t|i|i esz|i d|i d|i|]; cbn [top_step] in E1.
  - left. pose proof (alloc_tinv s (copies_of s) E d I) as A. pose proof (alloc_keeps s d u) as B. destruct (alloc_pay s d) as [s0 q]. cbn [fst snd] in *. destruct A as (I0 & Hg).
    destruct (new_token s0 i (Some q) _) as [[s1 n]|] eqn:E2; [|discriminate]. cbn in E1. injection E1 as <-.
    eapply new_keeps; [exact (ti_core _ _ _ I0)|exact Hg|exact E2|rewrite B; exact Hp].
  - left. eapply write_keeps; [|exact E1|exact Hp]. reflexivity.
  - destruct (step_done s _ E t I Hop) as (s2 & E2 & I2). cbn [top_step] in E2. rewrite E1 in E2. injection E2 as <-.
    rewrite (copies_of_chain _ _ _ I2).
    destruct (done_using s (Some t)) as [[s1 r]|] eqn:E2; [|discriminate]. cbn in E1. injection E1 as <-. cbn [op_ok] in Hop.
    destruct (done_keeps s _ t s1 r u p Ic (holders_E _ _ _ _ Hop) E2 Hp) as [A|(-> & A)]; [left; exact A|]. right; left.
    apply done_tmpl in E2. destruct E2 as (Hr & Hm). unfold holders in *. rewrite (tmpl_holders_frame s s1 t Hr) by (intros i; rewrite Hm; reflexivity).
    pose proof (count_remove1 E t t Hop) as K. rewrite Nat.eqb_refl in K. pose proof (count_in E t Hop). cbn [ext_step]. lia.
  - destruct Hop as (Hi & Hu & Hw). destruct (replace_ok s _ E i (Some t) I Hi (conj Hu Hw)) as (s2 & E2 & I2 & _). rewrite E1 in E2. injection E2 as <-.
    rewrite (copies_of_chain _ _ _ I2). cbn [ext_step].
    unfold replace_template_token in E1. destruct (opt_eqb _ _) eqn:Eo; [injection E1 as <-; left; exact Hp|].
    destruct (done_using s _) as [[s1 r]|] eqn:E2; [|discriminate]. cbn [bind fst] in E1.
    destruct (write_tok s1 t _) as [s2|] eqn:E3; [|discriminate]. cbn in E1. injection E1 as <-.
    assert (K : payload s1 u = Some p \/ (tp_tok (ts_tmpl s i) = Some u /\ holders s (copies_of s) E u = 1%nat)).
    { destruct (tp_tok (ts_tmpl s i)) as [x|] eqn:Et; [|injection E2 as <- _; left; exact Hp].
      destruct (done_keeps s _ x s1 r u p Ic (holders_T _ _ _ _ _ Hi Et) E2 Hp) as [A|(-> & A)]; auto. }
    destruct K as [K|(K1 & K2)].
    + left. change (payload s2 u = Some p). eapply write_keeps; [|exact E3|exact K]. reflexivity.
    + right; left. apply done_tmpl in E2. destruct E2 as (Hr & Hm).
      assert (N : t <> u) by (intros ->; rewrite K1 in Eo; cbn in Eo; rewrite Nat.eqb_refl in Eo; discriminate).
      unfold write_tok, get_tok in E3. destruct (ts_tok s1 t) as [k|]; [|discriminate]. cbn in E3. injection E3 as <-.
      pose proof (tmpl_holders_set (set_tok s1 t (Some (with_ref k ((tk_ref k + 1) mod two64)))) i (Some t) u) as Q.
      cbn [set_tok ts_reg ts_tmpl] in Q. rewrite Hr, Hm, K1 in Q. specialize (Q (ti_ndreg _ _ _ I) Hi). rewrite has_self, (has_other t u N) in Q.
      unfold holders in *. rewrite (tmpl_holders_frame s (set_tok s1 t (Some (with_ref k ((tk_ref k + 1) mod two64)))) u Hr) in Q by (intros j; cbn; rewrite Hm; reflexivity). lia.
  - destruct (replace_ok s _ E i None I Hop Logic.I) as (s2 & E2 & I2 & _). rewrite E1 in E2. injection E2 as <-. cbn [op_ok] in Hop.
    rewrite (copies_of_chain _ _ _ I2). cbn [ext_step].
    unfold replace_template_token in E1. destruct (opt_eqb _ _) eqn:Eo; [injection E1 as <-; left; exact Hp|].
    destruct (done_using s _) as [[s1 r]|] eqn:E2; [|discriminate]. cbn [bind fst] in E1. injection E1 as <-.
    assert (K : payload s1 u = Some p \/ (tp_tok (ts_tmpl s i) = Some u /\ holders s (copies_of s) E u = 1%nat)).
    { destruct (tp_tok (ts_tmpl s i)) as [x|] eqn:Et; [|injection E2 as <- _; left; exact Hp].
      destruct (done_keeps s _ x s1 r u p Ic (holders_T _ _ _ _ _ Hop Et) E2 Hp) as [A|(-> & A)]; auto. }
    destruct K as [K|(K1 & K2)]; [left; exact K|]. right; left. apply done_tmpl in E2. destruct E2 as (Hr & Hm).
    pose proof (tmpl_holders_set s1 i None u) as Q. rewrite Hr, Hm, K1 in Q. specialize (Q (ti_ndreg _ _ _ I) Hop). rewrite has_self in Q. cbn [has] in Q.
    unfold holders in *. rewrite (tmpl_holders_frame s s1 u Hr) in Q by (intros j; rewrite Hm; reflexivity). lia.
  - unfold initialize_template in E1.
    set (s0 := if mem i (ts_reg s) then s else set_reg s (i :: ts_reg s)) in *.
    assert (Hp0 : payload s0 u = Some p) by (unfold s0; destruct (mem i (ts_reg s)); exact Hp).
    assert (I0 : tinv s0 (copies_of s) E).
    { unfold s0. destruct (mem i (ts_reg s)) eqn:Em; [exact I|]. apply mem_nIn in Em. constructor; try apply I.
      - eapply core_irrel; [..|eapply core_ext; [|exact (ti_core _ _ _ I)]]; try reflexivity. intros w. unfold holders, tmpl_holders, set_reg; cbn.
        rewrite (ti_unreg _ _ _ I i Em). reflexivity.
      - cbn. constructor; [exact Em|apply I].
      - intros j Hj. cbn in Hj |- *. apply (ti_unreg _ _ _ I). intros Hx; apply Hj; right; exact Hx. }
    assert (Hi : In i (ts_reg s0)) by (unfold s0; destruct (mem i (ts_reg s)) eqn:Em; [apply mem_In; exact Em|left; reflexivity]).
    assert (Ht0 : ts_tmpl s0 = ts_tmpl s) by (unfold s0; destruct (mem i (ts_reg s)); reflexivity).
    assert (Hh : holders s0 (copies_of s) E u = holders s (copies_of s) E u).
    { unfold s0. destruct (mem i (ts_reg s)) eqn:Em; [reflexivity|]. apply mem_nIn in Em. unfold holders, tmpl_holders, set_reg; cbn.
      rewrite (ti_unreg _ _ _ I i Em). reflexivity. }
    clearbody s0. rewrite <- Hh, <- Ht0. clear Hh Ht0.
    assert (G : forall q, payload s' u = Some p \/ holders s0 (copies_of s) E u = 1%nat /\ tp_tok (ts_tmpl s0 i) = Some u ->
      payload s' u = Some p \/ q \/ holders s0 (copies_of s) E u = 1%nat /\ (exists j, tp_tok (ts_tmpl s0 j) = Some u /\ reuses (OInit i esz) j)).
    { intros q [A|(A & B)]; [left; exact A|]. right; right. split; [exact A|]. exists i. split; [exact B|reflexivity]. }
    apply G. clear G.
    pose proof (reusable_spec s0 _ E i I0) as HR.
    destruct (tp_tok (ts_tmpl s0 i)) as [t|] eqn:Et.
    + destruct HR as (k & Ek & Hb & _ & Er & _). unfold get_tok at 1 in E1. rewrite Ek in E1. cbn [bind] in E1.
      destruct ((tk_ref k =? 1) && _) eqn:Eb.
      * destruct (free_value_tinv s0 _ E t k I0 Ek) as (s1 & E2 & _ & _ & _ & _ & Ho & _). rewrite E2 in E1. cbn [bind] in E1.
        destruct (Nat.eq_dec u t) as [->|N]; [right; split; [lia|reflexivity]|]. left. eapply write_keeps; [|exact E1|]; [reflexivity|].
        unfold payload in *. rewrite (Ho u N). exact Hp0.
      * pose proof (drop_tmpl s0 _ E i I0 Hi) as (s1 & r & Ed & F & I1 & _). rewrite Et in Ed. rewrite Ed in E1. cbn [bind fst] in E1.
        destruct (done_keeps s0 _ t s1 r u p (ti_core _ _ _ I0) (holders_T _ _ _ _ _ Hi Et) Ed Hp0) as [A|(-> & A)]; [|right; auto].
        left. eapply (init_fresh_keeps (tmpl_set_tok s1 i None)); [exact I1|exact E1|exact A].
    + left. eapply (init_fresh_keeps s0); [exact I0| |exact Hp0]. unfold init_fresh. rewrite Et. exact E1.
  - pose proof (alloc_tinv s (copies_of s) E d I) as A. pose proof (alloc_keeps s d u) as B.
    assert (Hh : holders (fst (alloc_pay s d)) (copies_of s) E u = holders s (copies_of s) E u) by reflexivity.
    assert (Ht : ts_tmpl (fst (alloc_pay s d)) = ts_tmpl s) by reflexivity.
    destruct (alloc_pay s d) as [s0 q]. cbn [fst snd] in *. destruct A as (I0 & Hg).
    destruct (initialize_token_with_value s0 i q _) as [[s1 n]|] eqn:E2; [|discriminate]. cbn in E1. injection E1 as <-.
    destruct (init_value_keeps s0 _ E i q _ s1 n u p I0 E2 ltac:(rewrite B; exact Hp)) as [K|(K1 & K2)]; [left; exact K|].
    right; right. rewrite <- Hh. split; [exact K1|]. exists i. rewrite <- Ht. split; [exact K2|reflexivity].
  - pose proof (alloc_tinv s (copies_of s) E d I) as A. pose proof (alloc_keeps s d u) as B.
    assert (Hh : holders (fst (alloc_pay s d)) (copies_of s) E u = holders s (copies_of s) E u) by reflexivity.
    assert (Ht : ts_tmpl (fst (alloc_pay s d)) = ts_tmpl s) by reflexivity.
    destruct (alloc_pay s d) as [s0 q]. cbn [fst snd] in *. destruct A as (I0 & Hg).
    destruct (initialize_token_with_value s0 i q _) as [[s1 n]|] eqn:E2; [|discriminate]. cbn in E1. injection E1 as <-.
    destruct (init_value_keeps s0 _ E i q _ s1 n u p I0 E2 ltac:(rewrite B; exact Hp)) as [K|(K1 & K2)]; [left; exact K|].
    right; right. rewrite <- Hh. split; [exact K1|]. exists i. rewrite <- Ht. split; [exact K2|reflexivity].
  - left. unfold writable_copy in E1. destruct (tp_tok (ts_tmpl s i)) as [t|]; [|cbn in E1; injection E1 as <-; exact Hp].
    unfold get_tok at 1 in E1. destruct (ts_tok s t) as [k|] eqn:Ek; [|discriminate]. cbn [bind] in E1.
    destruct (_ && _) in E1; [cbn in E1; injection E1 as <-; exact Hp|]. destruct (_ && _) in E1; [cbn in E1; injection E1 as <-; exact Hp|].
    unfold copy_payload in E1. destruct (tk_val k) as [q|] eqn:Ev; [|discriminate]. destruct (ts_pay s q) as [d|] eqn:Ed; [|discriminate].
    destruct (_ <=? _) in E1; [|discriminate]. cbn [bind] in E1.
    destruct (c_val _ _ Ic t k q Ek Ev) as (d' & Ed' & El). rewrite Ed in Ed'. injection Ed' as <-. rewrite El, Nat2Z.id, firstn_all in E1.
    pose proof (alloc_tinv s (copies_of s) E d I) as A. pose proof (alloc_keeps s d u) as B. destruct (alloc_pay s d) as [s0 x]. cbn [fst snd] in *. destruct A as (I0 & Hg).
    destruct (new_token s0 i (Some x) _) as [[s1 n]|] eqn:E2; [|discriminate]. cbn [bind fst snd] in E1.
    destruct (new_keeps s0 _ i _ _ s1 n u p (ti_core _ _ _ I0) Hg E2 ltac:(rewrite B; exact Hp)) as (K & _).
    destruct (write_tok s1 n _) as [s2|] eqn:E3; [|discriminate]. cbn in E1. injection E1 as <-.
    change (payload s2 u = Some p). eapply write_keeps; [|exact E3|exact K]. reflexivity.
  - destruct (end_tag_ok _ (ts_fresh s) s E I (copies_len _ _ _ I) Hop) as (s2 & E2 & I2 & _). rewrite E1 in E2. injection E2 as <-.
    rewrite (copies_of_chain _ _ _ I2). cbn [ext_step]. destruct (end_keeps _ _ s s' E u p I Hop E1 Hp) as [A|A]; auto.
Qed.

(** ** A boolean checker for disciplined histories (used by the examples). *)
Definition usableb (s : tst) (t : nat) : bool := match ts_tok s t with Some _ => negb (mem t (ts_bin s)) | None => false end.
Definition op_okb (s : tst) (C E : list nat) (o : top) : bool :=
  match o with
  | ONew _ _ | OInit _ _ => true
  | OHold t => usableb s t && (Z.of_nat (holders s C E t) + 1 <? two64)
  | ODone t => mem t E
  | OSetToken i t => mem i (ts_reg s) && (usableb s t && (Z.of_nat (holders s C E t) + 1 <? two64))
  | OClear i => mem i (ts_reg s)
  | OSet i _ | OValue i _ => mem i (ts_reg s)
  | OCopy i => match tp_tok (ts_tmpl s i) with Some t => match contents s t with Some _ => true | None => false end | None => true end
  | OEndTag => (length (ts_bin s) + length C <=? BIN_LIMIT)%nat
  end.
Fixpoint ok_runb (s : tst) (E : list nat) (os : list top) : bool :=
  match os with
  | [] => true
  | o :: r => op_okb s (copies_of s) E o && match top_step s o with Ok s1 => ok_runb s1 (ext_step s E o) r | UB => true end
  end.
Lemma usableb_ok s t : usableb s t = true -> usable s t.
Proof.
  unfold usableb, usable. destruct (ts_tok s t); [|discriminate]. intros H. split; [discriminate|]. apply mem_nIn. destruct (mem t (ts_bin s)); [discriminate|reflexivity].
Qed.
Lemma op_okb_ok s C E o : op_okb s C E o = true -> op_ok s C E o.
Proof.
  destruct o; cbn [op_okb op_ok]; rewrite ?andb_true_iff; intros H; trivial; try (apply mem_In; exact H).
  - destruct H as (A & B). split; [apply usableb_ok; exact A|lia].
  - destruct H as (A & B & D). split; [apply mem_In; exact A|]. split; [apply usableb_ok; exact B|lia].
  - destruct (tp_tok (ts_tmpl s i)); [|trivial]. destruct (contents s n); [discriminate|discriminate].
  - apply Nat.leb_le; exact H.
Qed.
Lemma ok_runb_ok : forall os s E, ok_runb s E os = true -> ok_run s E os.
Proof.
  induction os as [|o r IH]; intros s E H; cbn [ok_runb ok_run] in *; [trivial|]. apply andb_true_iff in H. destruct H as (A & B).
  split; [apply op_okb_ok; exact A|]. intros s1 E1. rewrite E1 in B. apply IH; exact B.
Qed.

(** ** Overflow of the recycling bin at the end of a tag *)
Lemma end_overflow : forall C fuel s E, tinv s C E -> (length C <= fuel)%nat -> (forall t, In t C -> holders s C E t = 1%nat) ->
  (BIN_LIMIT < length (ts_bin s) + length C)%nat -> free_token_copies fuel s = UB.
Proof.
  induction C as [|t C IH]; intros fuel s E I Hf Hone Hb.
  - pose proof (c_len _ _ (ti_core _ _ _ I)). cbn [length] in Hb. lia.
  - pose proof (ti_chain _ _ _ I) as Hc. inversion Hc as [|? k ? Ek Hc' Hl]; subst.
    destruct fuel as [|f]; [cbn in Hf; lia|]. cbn [free_token_copies]. rewrite <- Hl.
    assert (Hpos : (0 < holders s (t :: C) E t)%nat) by (apply holders_C; left; reflexivity).
    destruct (done_using_ok s _ t (ti_core _ _ _ I) Hpos) as (s1 & -> & Ic & (F1 & F2 & F3 & F4 & F5) & Ho & _ & Hlen & k' & Ek' & H2 & H1).
    rewrite Ek in Ek'. injection Ek' as <-. cbn [bind fst].
    destruct (H1 (Hone t (or_introl eq_refl))) as (_ & _ & _ & Hroom & Hfull).
    destruct (le_lt_dec BIN_LIMIT (length (ts_bin s))) as [Hl1|Hl1].
    + unfold get_tok. rewrite (Hfull Hl1). reflexivity.
    + destruct (Hroom Hl1) as (Et1 & Eb1). unfold get_tok. rewrite Et1. cbn [bind].
      pose proof (ti_ndC _ _ _ I) as Hnd. inversion Hnd as [|? ? HnC HndC]; subst.
      apply (IH f _ E).
      * constructor.
        -- eapply core_irrel; [..|eapply core_ext; [|exact Ic]]; try reflexivity.
           intros u. unfold dec, holders. rewrite (tmpl_holders_frame s (set_list s1 _) u F2 F3). cbn [count_occ].
           destruct (Nat.eqb_spec u t) as [->|N]; [destruct (Nat.eq_dec t t); [lia|contradiction]|]. destruct (Nat.eq_dec t u); [congruence|reflexivity].
        -- cbn [set_list ts_tok ts_list with_val with_ref tk_next]. eapply chain_same; [exact Hc'|]. intros u Hu. apply Ho. intros ->. contradiction.
        -- exact HndC.
        -- cbn. rewrite F2. apply I.
        -- intros j. cbn. rewrite F2, F3. apply I.
      * cbn [length] in Hf. lia.
      * intros u Hu. specialize (Hone u (or_intror Hu)). unfold holders in *. rewrite (tmpl_holders_frame s (set_list s1 _) u F2 F3).
        cbn [count_occ] in Hone. destruct (Nat.eq_dec t u); [subst; contradiction|exact Hone].
      * cbn [set_list ts_bin]. rewrite Eb1. cbn [length] in Hb |- *. lia.
Qed.

Lemma copies_run : forall n s E i t k, tinv s (copies_of s) E -> tp_tok (ts_tmpl s i) = Some t -> ts_tok s t = Some k -> contents s t <> None ->
  tp_ndest (ts_tmpl s i) <> 1 -> (tp_esz (ts_tmpl s i) * tk_len k) mod two64 <> 0 -> (forall u, In u (copies_of s) -> holders s (copies_of s) E u = 1%nat) ->
  exists s', top_run s (repeat (OCopy i) n) = Ok s' /\ ok_run s E (repeat (OCopy i) n) /\ tinv s' (copies_of s') E /\ ext_run s E (repeat (OCopy i) n) = E /\
    length (copies_of s') = (n + length (copies_of s))%nat /\ (forall u, In u (copies_of s') -> holders s' (copies_of s') E u = 1%nat).
Proof.
  induction n as [|n IH]; intros s E i t k I Ht Ek Hc Hd Hz Hone; cbn [repeat top_run ok_run ext_run].
  - exists s. auto 10.
  - assert (Hop : op_ok s (copies_of s) E (OCopy i)) by (cbn; rewrite Ht; exact Hc).
    destruct (writable_copy_ok s _ E i I Hop) as (s1 & o & C1 & E1 & I1 & Hm & Hr & H). rewrite Ht in H. destruct H as (k' & r & Ek' & -> & H).
    rewrite Ek in Ek'. injection Ek' as <-.
    destruct H as [(_ & _ & _ & _ & H)|[(_ & _ & _ & H & _)|(N & Hnu & -> & Et & Hcr & Hct & _ & _ & _ & Hh)]]; [contradiction|contradiction|].
    pose proof (copies_of_chain _ _ _ I1) as EC. cbn [top_step]. rewrite E1. cbn [bind fst].
    destruct (IH s1 E i t k) as (s' & R & Ok1 & I' & EE & L & One).
    + rewrite EC. exact I1.
    + rewrite Hm. exact Ht.
    + exact Et.
    + rewrite Hct. exact Hc.
    + rewrite Hm. exact Hd.
    + rewrite Hm. exact Hz.
    + rewrite EC. intros u [<-|Hu]; [exact Hh|]. specialize (Hone u Hu). pose proof (ti_ndC _ _ _ I1) as Hnd. inversion Hnd; subst.
      unfold holders in *. rewrite (tmpl_holders_frame s s1 u Hr Hm). cbn [count_occ]. destruct (Nat.eq_dec r u); [subst; contradiction|exact Hone].
    + exists s'. split; [exact R|]. split.
      * split; [exact Hop|]. intros s2 X. injection X as <-. exact Ok1.
      * split; [exact I'|]. split; [exact EE|]. split; [|exact One]. rewrite L, EC. cbn [length]. lia.
Qed.
