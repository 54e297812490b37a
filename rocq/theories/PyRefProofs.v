From Verif Require Import Base PyRef PyRefSpec.
From Coq Require Import Lia.
Open Scope nat_scope.

Fixpoint sumf {A} (f : A -> nat) (l : list A) : nat := match l with [] => 0 | x :: l => f x + sumf f l end.
Lemma sumf_app {A} (f : A -> nat) l m : sumf f (l ++ m) = sumf f l + sumf f m.
Proof. induction l as [|a l IH]; cbn; [reflexivity|lia]. Qed.
Lemma sumf_upd {A} (f : A -> nat) i x y l : nth_error l i = Some x -> sumf f (upd i y l) + f x = sumf f l + f y.
Proof.
  revert i; induction l as [|a l IH]; intros [|i] e; cbn in *; try discriminate.
  - injection e as ->. lia.
  - specialize (IH i e). lia.
Qed.
Lemma upd_nth {A} i j (x : A) l : nth_error (upd i x l) j = if (i =? j) then (if j <? length l then Some x else None) else nth_error l j.
Proof.
  revert i j; induction l as [|a l IH]; intros [|i] [|j]; cbn; try reflexivity.
  - now destruct (i =? j).
  - rewrite IH. destruct (i =? j); reflexivity.
Qed.
Lemma upd_length {A} i (x : A) l : length (upd i x l) = length l.
Proof. revert i; induction l as [|a l IH]; intros [|i]; cbn; auto. Qed.
Lemma nth_lt {A} (l : list A) i x : nth_error l i = Some x -> i < length l.
Proof. intros e. apply nth_error_Some. now rewrite e. Qed.
Lemma upd_nth_in {A} i j (x y : A) l : nth_error l i = Some y -> nth_error (upd i x l) j = if i =? j then Some x else nth_error l j.
Proof.
  intros e. rewrite upd_nth. destruct (Nat.eqb_spec i j) as [ij|ij]; [|reflexivity]. subst j.
  apply nth_lt in e. apply Nat.ltb_lt in e. now rewrite e.
Qed.

(** Counting *)
Definition is (o x : nat) : nat := if x =? o then 1 else 0.
Definition cnt (o : nat) (l : list nat) : nat := sumf (is o) l.
Definition val_is (o : nat) (t : tok) : nat := match t_val t with Some x => is o x | None => 0 end.
Definition slot_is (i : nat) (x : option nat) : nat := match x with Some j => is i j | None => 0 end.
Definition occ (l : list (option nat)) (i : nat) : nat := sumf (slot_is i) l.
Definition refs (s : st) (i : nat) : nat := match nth_error (toks s) i with Some t => t_refs t | None => 0 end.

Lemma is_same o : is o o = 1.
Proof. unfold is. now rewrite Nat.eqb_refl. Qed.
Lemma cnt_pos o l : 0 < cnt o l <-> In o l.
Proof.
  unfold cnt. induction l as [|a l IH]; cbn; [lia|].  unfold is at 1.
  destruct (Nat.eqb_spec a o); split; intros; try (destruct IH; intuition lia); intuition lia.
Qed.
Lemma cnt_remove1 o x l : In o l -> cnt x (remove1 o l) + is x o = cnt x l.
Proof.
  unfold cnt. induction l as [|a l IH]; cbn; [easy|]. intros h.
  destruct (Nat.eqb_spec a o) as [e|e]; [subst; lia|]. cbn. destruct h as [h|h]; [contradiction|]. specialize (IH h). lia.
Qed.
Lemma occ_pos i l : 0 < occ l i <-> In (Some i) l.
Proof.
  unfold occ. induction l as [|a l IH]; cbn; [lia|].  destruct a as [j|]; cbn.
  - unfold is at 1. destruct (Nat.eqb_spec j i); [subst|]; split; intros h.
    + now left. + lia.
    + right. apply IH. lia.
    + destruct h as [h|h]; [congruence|]. apply IH in h. lia.
  - split; intros h; [right; apply IH; lia|]. destruct h as [h|h]; [discriminate|]. apply IH in h. lia.
Qed.
Lemma sum_val_pos o l : 0 < sumf (val_is o) l <-> exists i t, nth_error l i = Some t /\ t_val t = Some o.
Proof.
  induction l as [|a l IH].
  - cbn. split; [lia|]. intros (i & t & e & _). now destruct i.
  - cbn.  split.
    + intros h. destruct (t_val a) as [x|] eqn:e.
      * unfold val_is at 1 in h. rewrite e in h. unfold is in h. destruct (Nat.eqb_spec x o) as [xo|xo].
        { subst. exists 0, a. now split. }
        destruct IH as [IH _]. destruct IH as (i & t & h1 & h2); [lia|]. now exists (S i), t.
      * unfold val_is at 1 in h. rewrite e in h. destruct IH as [IH _]. destruct IH as (i & t & h1 & h2); [lia|]. now exists (S i), t.
    + intros ([|i] & t & e & v); cbn in e.
      * injection e as ->. unfold val_is at 1. rewrite v, is_same. lia.
      * assert (0 < sumf (val_is o) l); [|lia]. apply IH. eauto.
Qed.

(** The invariant.  [L]: references that are lost; [X]: holders of tokens that do not exist. *)
Record Inv (s : st) (sl : list (option nat)) (L : list nat) (X : nat -> nat) : Prop := {
  i_rc : forall o, rc s o = sumf (val_is o) (toks s) + cnt o (py s) + cnt o L;
  i_refs : forall i, refs s i = occ sl i + X i;
  i_val : forall i t, nth_error (toks s) i = Some t -> t_val t <> None -> 0 < t_refs t;
  i_next : forall o, next s <= o -> rc s o = 0;
  i_caps : forall c, In c (caps s) -> 1 <= k_rc c }.
Definition allport (s : st) : Prop := forall i t, nth_error (toks s) i = Some t -> t_val t <> None -> t_dtor t = true.

(** States that differ in the reference counts and tokens only. *)
Definition rest (s s' : st) : Prop :=
  next s' = next s /\ py s' = py s /\ port s' = port s /\ act s' = act s /\ astr s' = astr s /\ queue s' = queue s /\ caps s' = caps s.
Lemma rest_refl s : rest s s.
Proof. repeat split. Qed.
Lemma rest_trans a b c : rest a b -> rest b c -> rest a c.
Proof. unfold rest. intuition congruence. Qed.

Lemma decref_spec s o : 0 < rc s o -> decref s o = Ok (set_rc s o (rc s o - 1)).
Proof. intros h. unfold decref. destruct (Nat.eqb_spec (rc s o) 0); [lia|reflexivity]. Qed.
Lemma incref_spec s o : 0 < rc s o -> incref s o = Ok (set_rc s o (S (rc s o))).
Proof. intros h. unfold incref. destruct (Nat.eqb_spec (rc s o) 0); [lia|reflexivity]. Qed.

Lemma tok_counted s i t o : nth_error (toks s) i = Some t -> t_val t = Some o -> 0 < sumf (val_is o) (toks s).
Proof. intros e v. apply sum_val_pos. eauto. Qed.

(** Freeing the value of a token that has no holder. *)
Lemma free_value_spec s i t t0 sl L X :
  Inv s sl L X -> nth_error (toks s) i = Some t0 -> t_val t = t_val t0 -> t_dtor t = t_dtor t0 ->
  exists s' L', free_value s i t = Ok s' /\ rest s s' /\
    toks s' = upd i (mkTok None (t_refs t) (t_dtor t)) (toks s) /\
    (forall o, rc s' o = sumf (val_is o) (toks s') + cnt o (py s') + cnt o L') /\
    (forall o, next s <= o -> rc s' o = 0) /\(allport s -> L' = L).
Proof.
  intros I e ev ed. unfold free_value. rewrite ev, ed.
  assert (g : forall o, sumf (val_is o) (upd i (mkTok None (t_refs t) (t_dtor t0)) (toks s)) + val_is o t0 = sumf (val_is o) (toks s)).
  { intros o. pose proof (sumf_upd (val_is o) i t0 (mkTok None (t_refs t) (t_dtor t0)) (toks s) e) as h. change (val_is o (mkTok None (t_refs t) (t_dtor t0))) with 0 in h. lia. }
  destruct (t_val t0) as [o|] eqn:v.
  - assert (pos : 0 < rc s o). { rewrite (i_rc _ _ _ _ I). pose proof (tok_counted s i t0 o e v). lia. }
    assert (gv : forall x, val_is x t0 = is x o) by (intros x; unfold val_is; now rewrite v).
    destruct (t_dtor t0) eqn:d.
    + rewrite (decref_spec s o pos). cbn [bind]. eexists; exists L. split; [reflexivity|]. split; [repeat split|]. split; [reflexivity|].
      split; [|split; [|auto]].
      * intros x. cbn [rc set_rc set_toks toks py]. specialize (g x). rewrite gv in g. pose proof (i_rc _ _ _ _ I x) as h. unfold is in g.
        destruct (Nat.eqb_spec x o) as [xo|xo]; [subst x; rewrite Nat.eqb_refl in g|destruct (Nat.eqb_spec o x); [congruence|]]; lia.
      * intros x hx. cbn. destruct (Nat.eqb_spec x o); [subst x; rewrite (i_next _ _ _ _ I) by exact hx; reflexivity|now apply (i_next _ _ _ _ I)].
    + cbn [bind]. eexists; exists (o :: L). split; [reflexivity|]. split; [repeat split|]. split; [reflexivity|].
      split; [|split].
      * intros x. cbn [rc set_rc set_toks toks py]. specialize (g x). rewrite gv in g. pose proof (i_rc _ _ _ _ I x) as h. change (cnt x (o :: L)) with (is x o + cnt x L). lia.
      * intros x hx. cbn. now apply (i_next _ _ _ _ I).
      * intros ap. exfalso. assert (t_dtor t0 = true) by (apply (ap i); [exact e|rewrite v; discriminate]). congruence.
  - cbn [bind]. eexists; exists L. split; [reflexivity|]. split; [repeat split|]. split; [reflexivity|].
    split; [|split; [|auto]].
    + intros x. cbn [rc set_rc set_toks toks py]. specialize (g x). assert (gv : val_is x t0 = 0) by (unfold val_is; now rewrite v). pose proof (i_rc _ _ _ _ I x). lia.
    + intros x hx. cbn. now apply (i_next _ _ _ _ I).
Qed.

Lemma Inv_occ s sl sl' L X : Inv s sl L X -> (forall i, occ sl i = occ sl' i) -> Inv s sl' L X.
Proof. intros [a b c d e] h. constructor; auto. intros i. now rewrite <- h. Qed.

Lemma occ_cons x sl i : occ (x :: sl) i = slot_is i x + occ sl i.
Proof. reflexivity. Qed.
Lemma occ_app a b i : occ (a ++ b) i = occ a i + occ b i.
Proof. apply sumf_app. Qed.

Lemma slot_token s sl L X i : Inv s sl L X -> In (Some i) sl -> exists t, nth_error (toks s) i = Some t /\ 0 < t_refs t.
Proof.
  intros I h. apply occ_pos in h. pose proof (i_refs _ _ _ _ I i) as e. unfold refs in e.
  destruct (nth_error (toks s) i) as [t|]; [|lia]. exists t. split; [reflexivity|lia].
Qed.

Lemma allport_upd s s' i t t0 : toks s' = upd i t (toks s) -> nth_error (toks s) i = Some t0 ->
  (t_val t = None \/ t_val t = t_val t0 /\ t_dtor t = t_dtor t0) -> allport s -> allport s'.
Proof.
  intros e e0 h ap j u ej v. rewrite e, (upd_nth_in i j t t0) in ej by exact e0.
  destruct (Nat.eqb_spec i j) as [ij|ij]; [|now apply (ap j)].
  injection ej as <-. destruct h as [h|[h1 h2]]; [contradiction|]. rewrite h2. apply (ap i); [exact e0|congruence].
Qed.

Lemma done_using_spec s x sl L X : Inv s (x :: sl) L X ->
  exists s' L', done_using s x = Ok s' /\ rest s s' /\ Inv s' sl L' X /\ (allport s -> L' = L /\ allport s').
Proof.
  intros I. destruct x as [i|]; cbn [done_using].
  2:{ exists s, L. split; [reflexivity|]. split; [apply rest_refl|]. split; [|auto].
      apply Inv_occ with (1 := I). intros i. now rewrite occ_cons. }
  destruct (slot_token _ _ _ _ i I) as (t & e & tp); [now left|]. rewrite e.
  destruct (Nat.eqb_spec (t_refs t) 0); [lia|]. cbn [t_refs].
  pose proof (i_refs _ _ _ _ I) as R. 
  destruct (Nat.eqb_spec (t_refs t - 1) 0) as [z|z].
  - destruct (free_value_spec s i (mkTok (t_val t) (t_refs t - 1) (t_dtor t)) t (Some i :: sl) L X I e) as (s' & L' & f & rs & tk & h1 & h2 & h3); [reflexivity|reflexivity|].
    exists s', L'. split; [exact f|]. split; [exact rs|]. cbn [t_refs t_dtor] in tk. split.
    + constructor; auto.
      * intros j. unfold refs. rewrite tk, (upd_nth_in i j _ t) by exact e. specialize (R j). unfold refs in R.
        rewrite occ_cons in R. cbn in R. unfold is in R. destruct (Nat.eqb_spec i j) as [ij|ij]; [subst j; rewrite e in R; cbn; lia|exact R].
      * intros j u ej v. rewrite tk, (upd_nth_in i j _ t) in ej by exact e. destruct (Nat.eqb_spec i j); [injection ej as <-; now contradict v|].
        now apply (i_val _ _ _ _ I j).
      * intros o ho. apply h2. destruct rs as (rn & _). now rewrite <- rn.
      * intros c hc. apply (i_caps _ _ _ _ I). destruct rs as (_ & _ & _ & _ & _ & _ & rk). now rewrite <- rk.
    + intros ap. split; [auto|]. apply allport_upd with (1 := tk) (2 := e); [now left|exact ap].
  - exists (set_toks s (upd i (mkTok (t_val t) (t_refs t - 1) (t_dtor t)) (toks s))), L. split; [reflexivity|]. split; [repeat split|]. split.
    + constructor; cbn [rc toks py set_toks next caps].
      * intros o. pose proof (sumf_upd (val_is o) i t (mkTok (t_val t) (t_refs t - 1) (t_dtor t)) (toks s) e) as h.
        change (val_is o (mkTok (t_val t) (t_refs t - 1) (t_dtor t))) with (val_is o t) in h. rewrite (i_rc _ _ _ _ I o). lia.
      * intros j. unfold refs. cbn [toks set_toks]. rewrite (upd_nth_in i j _ t) by exact e. specialize (R j). unfold refs in R.
        rewrite occ_cons in R. cbn in R. unfold is in R. destruct (Nat.eqb_spec i j) as [ij|ij]; [subst j; rewrite e in R; cbn; lia|exact R].
      * intros j u ej v. rewrite (upd_nth_in i j _ t) in ej by exact e. destruct (Nat.eqb_spec i j); [injection ej as <-; cbn; lia|].
        now apply (i_val _ _ _ _ I j).
      * apply (i_next _ _ _ _ I).
      * apply (i_caps _ _ _ _ I).
    + intros ap. split; [reflexivity|]. eapply allport_upd; [reflexivity|exact e|now right|exact ap].
Qed.

Lemma hold_spec s x sl L X : Inv s sl L X -> (forall i, x = Some i -> nth_error (toks s) i <> None) ->
  Inv (hold s x) (x :: sl) L X /\ rest s (hold s x) /\ (allport s -> allport (hold s x)).
Proof.
  intros I h. destruct x as [i|]; cbn [hold].
  2:{ split; [|split; [apply rest_refl|auto]]. apply Inv_occ with (1 := I). intros i. now rewrite occ_cons. }
  destruct (nth_error (toks s) i) as [t|] eqn:e; [|now destruct (h i eq_refl)].
  pose proof (i_refs _ _ _ _ I) as R. split; [|split; [repeat split|]].
  - constructor; cbn [rc toks py set_toks next caps].
    + intros o. pose proof (sumf_upd (val_is o) i t (mkTok (t_val t) (S (t_refs t)) (t_dtor t)) (toks s) e) as g.
      change (val_is o (mkTok (t_val t) (S (t_refs t)) (t_dtor t))) with (val_is o t) in g. rewrite (i_rc _ _ _ _ I o). lia.
    + intros j. unfold refs. cbn [toks set_toks]. rewrite (upd_nth_in i j _ t) by exact e. specialize (R j). unfold refs in R.
      rewrite occ_cons. cbn. unfold is. destruct (Nat.eqb_spec i j) as [ij|ij]; [subst j; rewrite e in R; cbn; lia|exact R].
    + intros j u ej v. rewrite (upd_nth_in i j _ t) in ej by exact e. destruct (Nat.eqb_spec i j); [injection ej as <-; cbn; lia|].
      now apply (i_val _ _ _ _ I j).
    + apply (i_next _ _ _ _ I).
    + apply (i_caps _ _ _ _ I).
  - intros ap. eapply allport_upd; [reflexivity|exact e|now right|exact ap].
Qed.

Lemma same_spec x y : same x y = true <-> x = y.
Proof.
  destruct x as [i|], y as [j|]; cbn; split; intros h; try congruence; try discriminate; auto.
  - apply Nat.eqb_eq in h. now subst.
  - injection h as ->. apply Nat.eqb_refl.
Qed.

Lemma replace_spec s old new sl L X : Inv s (old :: sl) L X -> (new = None \/ In new (old :: sl)) ->
  exists s' L', replace s old new = Ok s' /\ rest s s' /\ Inv s' (new :: sl) L' X /\ (allport s -> L' = L /\ allport s').
Proof.
  intros I h. unfold replace. destruct (same old new) eqn:e.
  - apply same_spec in e. subst new. exists s, L. split; [reflexivity|]. split; [apply rest_refl|]. split; [exact I|auto].
  - destruct (done_using_spec _ _ _ _ _ I) as (s1 & L1 & d & r1 & I1 & ap1). rewrite d. cbn [bind].
    destruct (hold_spec s1 new sl L1 X I1) as (I2 & r2 & ap2).
    { intros i ->. destruct h as [h|[h|h]]; [discriminate|subst old; rewrite (proj2 (same_spec _ _) eq_refl) in e; discriminate|].
      destruct (slot_token _ _ _ _ i I1 h) as (t & et & _). now rewrite et. }
    exists (hold s1 new), L1. split; [reflexivity|]. split; [eapply rest_trans; eassumption|]. split; [exact I2|].
    intros ap. destruct (ap1 ap). auto.
Qed.

(** Changes that do not concern tokens. *)
Lemma Inv_slots s s' sl L X : Inv s sl L X -> rc s' = rc s -> toks s' = toks s -> py s' = py s -> next s' = next s -> caps s' = caps s -> Inv s' sl L X.
Proof.
  intros [a b c d e] h1 h2 h3 h4 h5. constructor.
  - intros o. rewrite h1, h2, h3. apply a.
  - intros i. unfold refs. rewrite h2. apply b.
  - rewrite h2. exact c.
  - rewrite h1, h4. exact d.
  - rewrite h5. exact e.
Qed.
Lemma Inv_caps s ks sl L X : Inv s sl L X -> (forall c, In c ks -> 1 <= k_rc c) -> Inv (set_caps s ks) sl L X.
Proof. intros [a b c d e] h. constructor; auto. Qed.
Lemma in_upd {A} i (x : A) l y : In y (upd i x l) -> y = x \/ In y l.
Proof. revert i; induction l as [|a l IH]; intros [|i]; cbn; auto; intros [h|h]; auto. destruct (IH _ h); auto. Qed.
Lemma set_val_Inv s k v sl L X : Inv s sl L X -> Inv (set_val s k v) sl L X.
Proof.
  intros I. unfold set_val. destruct (nth_error (caps s) k) as [c|] eqn:e; [|exact I].
  apply Inv_caps; [exact I|]. intros y h. apply in_upd in h. destruct h as [->|h]; [cbn|]; apply (i_caps _ _ _ _ I); [now apply nth_error_In in e|exact h].
Qed.
Lemma set_val_rest s k v : slots (set_val s k v) = slots s /\ toks (set_val s k v) = toks s.
Proof. unfold set_val. destruct (nth_error (caps s) k); now split. Qed.
Lemma owns_spec s o : owns s o = true <-> In o (py s).
Proof.
  unfold owns. rewrite existsb_exists. split; [intros (x & h & e); apply Nat.eqb_eq in e; now subst|intros h; exists o; now rewrite Nat.eqb_refl].
Qed.
Lemma held_rc s sl L X o : Inv s sl L X -> held s o -> 0 < rc s o.
Proof.
  intros I h. rewrite (i_rc _ _ _ _ I). destruct h as [h|(i & t & _ & e & v)].
  - apply cnt_pos in h. lia.
  - pose proof (tok_counted s i t o e v). lia.
Qed.

(** One more reference to [o], owned by Python code. *)
Lemma py_incref s o sl L X : Inv s sl L X -> 0 < rc s o ->
  Inv (set_py (set_rc s o (S (rc s o))) (o :: py s)) sl L X.
Proof.
  intros I p. constructor; cbn [rc toks py set_py set_rc next caps].
  - intros x. pose proof (i_rc _ _ _ _ I x) as h. change (cnt x (o :: py s)) with (is x o + cnt x (py s)). unfold is.
    destruct (Nat.eqb_spec x o) as [xo|xo]; [subst x; rewrite Nat.eqb_refl|destruct (Nat.eqb_spec o x); [congruence|]]; lia.
  - exact (i_refs _ _ _ _ I).
  - exact (i_val _ _ _ _ I).
  - intros x hx. pose proof (i_next _ _ _ _ I x hx). destruct (Nat.eqb_spec x o); [subst x; lia|assumption].
  - exact (i_caps _ _ _ _ I).
Qed.

Lemma port_set_spec s k o L X : Inv s (slots s) L X -> In o (py s) ->
  exists s' L', port_set s k o = Ok s' /\ Inv s' (slots s') L' X /\ (allport s -> L' = L /\ allport s').
Proof.
  intros I h. unfold port_set. destruct (done_using_spec _ _ _ _ _ I) as (s1 & L1 & d & r1 & I1 & ap1).
  rewrite d. cbn [bind]. destruct r1 as (rn & rp & rport & ract & rastr & rq & rk).
  set (s2 := set_port _ _). assert (p : 0 < rc s2 o).
  { change (rc s2 o) with (rc s1 o). rewrite (i_rc _ _ _ _ I1), rp. apply cnt_pos in h. lia. }
  rewrite (incref_spec s2 o p). cbn [bind].
  exists (set_val (set_rc s2 o (S (rc s2 o))) k (CObj o)), L1. split; [reflexivity|].
  set (s3 := set_rc s2 o _).
  assert (I3 : Inv s3 (Some (length (toks s1)) :: act s :: astr s :: queue s) L1 X).
  { constructor.
    - intros x. cbn [s3 s2 rc toks py set_port set_rc set_toks]. rewrite sumf_app. cbn [sumf]. rewrite Nat.add_0_r.
      pose proof (i_rc _ _ _ _ I1 x) as g. change (val_is x (mkTok (Some o) 1 true)) with (is x o). unfold is.
      destruct (Nat.eqb_spec x o) as [xo|xo]; [subst x; rewrite Nat.eqb_refl; cbn [s2 rc toks py set_port set_rc set_toks]|destruct (Nat.eqb_spec o x); [congruence|]]; lia.
    - intros i. unfold refs. cbn [s3 s2 rc toks py set_port set_rc set_toks]. rewrite occ_cons. pose proof (i_refs _ _ _ _ I1 i) as g. unfold refs in g.
      cbn [slot_is]. unfold is. destruct (Nat.eqb_spec (length (toks s1)) i) as [li|li].
      + subst i. rewrite nth_error_app2, Nat.sub_diag by lia. cbn [nth_error t_refs]. assert (nn : nth_error (toks s1) (length (toks s1)) = None) by (apply nth_error_None; lia).
        rewrite nn in g. lia.
      + destruct (lt_dec i (length (toks s1))) as [lt|lt]; [rewrite nth_error_app1 by exact lt; exact g|].
        assert (nn : nth_error (toks s1) i = None) by (apply nth_error_None; lia). rewrite nn in g.
        assert (n2 : nth_error (toks s1 ++ [mkTok (Some o) 1 true]) i = None) by (apply nth_error_None; rewrite app_length; cbn; lia). rewrite n2. lia.
    - intros i t e v. cbn [s3 s2 rc toks py set_port set_rc set_toks] in e. destruct (lt_dec i (length (toks s1))) as [lt|lt].
      + rewrite nth_error_app1 in e by exact lt. now apply (i_val _ _ _ _ I1 i).
      + rewrite nth_error_app2 in e by lia. destruct (i - length (toks s1)) as [|m]; [cbn in e; injection e as <-; cbn; lia|destruct m; discriminate].
    - intros x hx. pose proof (i_next _ _ _ _ I1 x hx) as z. cbn [s3 s2 rc toks py set_port set_rc set_toks]. destruct (Nat.eqb_spec x o) as [xo|xo]; [|exact z].
      subst x. cbn [s2 rc set_port set_toks] in p. lia.
    - exact (i_caps _ _ _ _ I1). }
  split.
  - destruct (set_val_rest s3 k (CObj o)) as [-> _]. apply set_val_Inv. apply Inv_occ with (1 := I3). intros i.
    unfold slots. cbn [s3 s2 port act astr queue set_port set_rc set_toks toks]. rewrite ract, rastr, rq, app_length. cbn [length].
    now replace (length (toks s1) + 1 - 1) with (length (toks s1)) by lia.
  - intros ap. destruct (ap1 ap) as [lq ap']. split; [exact lq|]. intros i t e v. destruct (set_val_rest s3 k (CObj o)) as [_ te]. rewrite te in e.
    cbn [s3 s2 rc toks py set_port set_rc set_toks] in e. destruct (lt_dec i (length (toks s1))) as [lt|lt].
    + rewrite nth_error_app1 in e by exact lt. now apply (ap' i).
    + rewrite nth_error_app2 in e by lia. destruct (i - length (toks s1)) as [|m]; [cbn in e; now injection e as <-|destruct m; discriminate].
Qed.

Lemma hold_slots s x : slots (hold s x) = slots s /\ queue (hold s x) = queue s.
Proof. unfold hold. destruct x as [i|]; [|now split]. destruct (nth_error (toks s) i); now split. Qed.

(** The end of scheduling: the event takes the token. *)
Lemma enqueue_spec s t L X : Inv s (slots s) L X -> (forall i, t = Some i -> nth_error (toks s) i <> None) ->
  Inv (set_queue (hold s t) (queue s ++ [t])) (slots (set_queue (hold s t) (queue s ++ [t]))) L X /\
  (allport s -> allport (set_queue (hold s t) (queue s ++ [t]))).
Proof.
  intros I h. destruct (hold_spec s t (slots s) L X I h) as (I1 & r1 & ap1). split; [|exact ap1].
  apply Inv_slots with (hold s t); try reflexivity. apply Inv_occ with (1 := I1). intros i.
  destruct r1 as (_ & _ & r3 & r4 & r5 & _). unfold slots. cbn [port act astr queue set_queue]. rewrite r3, r4, r5.
  rewrite ?occ_cons, occ_app, ?occ_cons. change (occ [] i) with 0. lia.
Qed.

Lemma action_token_spec s i o L X : Inv s (slots s) L X -> In (Some i) (slots s) -> In o (py s) ->
  exists s1 j L' X', action_token s i o = Ok (s1, j) /\ 0 < rc s1 o /\ nth_error (toks s1) j <> None /\
    slots s1 = slots s /\ Inv (set_rc s1 o (S (rc s1 o))) (slots s) L' X'.
Proof.
  intros I hi ho. unfold action_token. destruct (slot_token _ _ _ _ i I hi) as (t & e & tp). rewrite e.
  pose proof (i_refs _ _ _ _ I) as R. apply cnt_pos in ho.
  destruct (Nat.eqb_spec (t_refs t) 1) as [r1|r1].
  - destruct (free_value_spec s i t t (slots s) L X I e eq_refl eq_refl) as (s1 & L1 & f & rs & tk & h1 & h2 & _).
    rewrite f. cbn [bind]. destruct rs as (rn & rp & rport & ract & rastr & rq & rk).
    assert (e1 : nth_error (toks s1) i = Some (mkTok None (t_refs t) (t_dtor t))).
    { rewrite tk, (upd_nth_in i i _ t) by exact e. now rewrite Nat.eqb_refl. }
    eexists _, i, L1, X. split; [reflexivity|]. cbn [rc set_toks toks].
    assert (p : 0 < rc s1 o) by (rewrite h1, rp; lia). split; [exact p|].
    split; [rewrite (upd_nth_in i i _ _) with (1 := e1); now rewrite Nat.eqb_refl|].
    split; [unfold slots; cbn [port act astr queue set_toks]; now rewrite rport, ract, rastr, rq|].
    constructor; cbn [rc toks py set_rc set_toks next caps].
    + intros x. pose proof (sumf_upd (val_is x) i _ (mkTok (Some o) 1 (t_dtor t)) _ e1) as g.
      change (val_is x (mkTok None (t_refs t) (t_dtor t))) with 0 in g. change (val_is x (mkTok (Some o) 1 (t_dtor t))) with (is x o) in g.
      pose proof (h1 x) as q. unfold is in g.
      destruct (Nat.eqb_spec x o) as [xo|xo]; [subst x; rewrite Nat.eqb_refl in g|destruct (Nat.eqb_spec o x); [congruence|]]; lia.
    + intros j. unfold refs. cbn [toks set_rc set_toks]. rewrite (upd_nth_in i j _ _) with (1 := e1). rewrite tk, (upd_nth_in i j _ t) by exact e.
      specialize (R j). unfold refs in R. destruct (Nat.eqb_spec i j) as [ij|ij]; [subst j; rewrite e in R; cbn [t_refs]; lia|exact R].
    + intros j u ej v. rewrite (upd_nth_in i j _ _) with (1 := e1) in ej. destruct (Nat.eqb_spec i j) as [ij|ij]; [injection ej as <-; cbn; lia|].
      rewrite tk, (upd_nth_in i j _ t) in ej by exact e. destruct (Nat.eqb_spec i j); [contradiction|]. now apply (i_val _ _ _ _ I j).
    + intros x hx. rewrite rn in hx. pose proof (h2 x hx). destruct (Nat.eqb_spec x o); [subst x; lia|assumption].
    + rewrite rk. exact (i_caps _ _ _ _ I).
  - exists (set_toks s (toks s ++ [mkTok (Some o) 1 false])), (length (toks s)), L, (fun j => X j + is j (length (toks s))).
    split; [reflexivity|]. cbn [rc set_toks toks].
    assert (p : 0 < rc s o) by (rewrite (i_rc _ _ _ _ I); lia). split; [exact p|].
    split; [rewrite nth_error_app2, Nat.sub_diag by lia; discriminate|]. split; [reflexivity|].
    constructor; cbn [rc toks py set_rc set_toks next caps].
    + intros x. rewrite sumf_app. cbn [sumf]. rewrite Nat.add_0_r. pose proof (i_rc _ _ _ _ I x) as g.
      change (val_is x (mkTok (Some o) 1 false)) with (is x o). unfold is.
      destruct (Nat.eqb_spec x o) as [xo|xo]; [subst x; rewrite Nat.eqb_refl|destruct (Nat.eqb_spec o x); [congruence|]]; lia.
    + intros j. unfold refs. cbn [toks set_rc set_toks]. specialize (R j). unfold refs in R. unfold is.
      destruct (Nat.eqb_spec (length (toks s)) j) as [lj|lj].
      * subst j. rewrite nth_error_app2, Nat.sub_diag by lia. cbn [nth_error t_refs].
        assert (nn : nth_error (toks s) (length (toks s)) = None) by (apply nth_error_None; lia). rewrite nn in R. lia.
      * destruct (lt_dec j (length (toks s))) as [lt|lt]; [rewrite nth_error_app1 by exact lt; lia|].
        assert (nn : nth_error (toks s) j = None) by (apply nth_error_None; lia). rewrite nn in R.
        assert (n2 : nth_error (toks s ++ [mkTok (Some o) 1 false]) j = None) by (apply nth_error_None; rewrite app_length; cbn; lia). rewrite n2. lia.
    + intros j u ej v. destruct (lt_dec j (length (toks s))) as [lt|lt].
      * rewrite nth_error_app1 in ej by exact lt. now apply (i_val _ _ _ _ I j).
      * rewrite nth_error_app2 in ej by lia. destruct (j - length (toks s)) as [|m]; [cbn in ej; injection ej as <-; cbn; lia|destruct m; discriminate].
    + intros x hx. pose proof (i_next _ _ _ _ I x hx). destruct (Nat.eqb_spec x o); [subst x; lia|assumption].
    + exact (i_caps _ _ _ _ I).
Qed.

Lemma py_schedule_spec s k v L X : Inv s (slots s) L X -> (forall o, v = Some o -> In o (py s)) ->
  exists s' L' X', py_schedule s k v = Ok s' /\ Inv s' (slots s') L' X' /\ (v = None -> allport s -> L' = L /\ X' = X /\ allport s').
Proof.
  intros I h. unfold py_schedule. destruct v as [o|]; [destruct (act s) as [i|] eqn:a|].
  - destruct (action_token_spec s i o L X I) as (s1 & j & L' & X' & e & p & nj & sl & I1); [right; left; exact a|now apply h|].
    rewrite e. cbn [bind fst snd]. rewrite (incref_spec s1 o p). cbn [bind].
    set (s2 := set_val _ _ _). destruct (set_val_rest (set_rc s1 o (S (rc s1 o))) k (CObj o)) as [q1 q2]. fold s2 in q1, q2.
    assert (I2 : Inv s2 (slots s2) L' X').
    { rewrite q1. change (slots (set_rc s1 o (S (rc s1 o)))) with (slots s1). rewrite sl. now apply set_val_Inv. }
    destruct (enqueue_spec s2 (Some j) L' X' I2) as [I3 _].
    { intros i' h'. injection h' as <-. rewrite q2. exact nj. }
    eexists _, L', X'. split; [reflexivity|]. split; [exact I3|discriminate].
  - cbn [bind]. destruct (enqueue_spec s None L X I) as [I3 ap]; [discriminate|]. eexists _, L, X. split; [reflexivity|]. split; [exact I3|discriminate].
  - cbn [bind]. destruct (enqueue_spec s None L X I) as [I3 ap]; [discriminate|]. eexists _, L, X. split; [reflexivity|]. split; [exact I3|auto].
Qed.

Lemma Inv_self s L X s' : Inv s (slots s) L X -> slots s' = slots s -> Inv s' (slots s) L X -> Inv s' (slots s') L X.
Proof. intros _ e I. now rewrite e. Qed.

Lemma add_cap_Inv s c sl L X : Inv s sl L X -> 1 <= k_rc c -> Inv (add_cap s c) sl L X.
Proof.
  intros I h. apply Inv_caps; [exact I|]. intros y hy. apply in_app_or in hy. destruct hy as [hy|[<-|[]]]; [now apply (i_caps _ _ _ _ I)|exact h].
Qed.
Lemma upd_cap_Inv s k c sl L X : Inv s sl L X -> 1 <= k_rc c -> Inv (set_caps s (upd k c (caps s))) sl L X.
Proof.
  intros I h. apply Inv_caps; [exact I|]. intros y hy. apply in_upd in hy. destruct hy as [->|hy]; [exact h|now apply (i_caps _ _ _ _ I)].
Qed.

Lemma step_spec s x L X : Inv s (slots s) L X -> careful_op s x ->
  exists s' L' X', step s x = Ok s' /\ Inv s' (slots s') L' X' /\ (ports_only x -> allport s -> L' = L /\ X' = X /\ allport s').
Proof.
  intros I C.
  assert (stay : exists s' L' X', Ok s = Ok s' /\ Inv s' (slots s') L' X' /\ (ports_only x -> allport s -> L' = L /\ X' = X /\ allport s')).
  { exists s, L, X. split; [reflexivity|]. split; [exact I|auto]. }
  destruct x; cbn [step]; try exact stay.
  - (* ONew *)
    eexists _, L, X. split; [reflexivity|]. split; [|auto].
    assert (z : rc s (next s) = 0) by (apply (i_next _ _ _ _ I); lia).
    constructor; cbn [rc toks py next caps].
    + intros o. pose proof (i_rc _ _ _ _ I o) as h. change (cnt o (next s :: py s)) with (is o (next s) + cnt o (py s)). unfold is.
      destruct (Nat.eqb_spec o (next s)) as [e|e]; [subst o; rewrite Nat.eqb_refl|destruct (Nat.eqb_spec (next s) o); [congruence|]]; lia.
    + exact (i_refs _ _ _ _ I).
    + exact (i_val _ _ _ _ I).
    + intros o h. destruct (Nat.eqb_spec o (next s)); [lia|]. apply (i_next _ _ _ _ I). lia.
    + exact (i_caps _ _ _ _ I).
  - (* ODup *)
    destruct (owns s o) eqn:e; [|exact stay]. apply owns_spec in e.
    assert (p : 0 < rc s o) by (apply (held_rc s _ _ _ o I); now left). rewrite (incref_spec s o p). cbn [bind].
    eexists _, L, X. split; [reflexivity|]. split; [|auto]. exact (py_incref s o _ L X I p).
  - (* ODrop *)
    destruct (owns s o) eqn:e; [|exact stay]. apply owns_spec in e.
    assert (p : 0 < rc s o) by (apply (held_rc s _ _ _ o I); now left). rewrite (decref_spec s o p). cbn [bind].
    eexists _, L, X. split; [reflexivity|]. split; [|auto]. constructor; cbn [rc toks py set_py set_rc next caps].
    + intros x. pose proof (i_rc _ _ _ _ I x) as h. pose proof (cnt_remove1 o x (py s) e) as g. unfold is in g.
      destruct (Nat.eqb_spec x o) as [xo|xo]; [subst x; rewrite Nat.eqb_refl in g|destruct (Nat.eqb_spec o x); [congruence|]]; lia.
    + exact (i_refs _ _ _ _ I).
    + exact (i_val _ _ _ _ I).
    + intros x h. pose proof (i_next _ _ _ _ I x h). destruct (Nat.eqb_spec x o); [subst x; lia|assumption].
    + exact (i_caps _ _ _ _ I).
  - (* OSet *)
    destruct (owns s o) eqn:e; [|exact stay]. apply owns_spec in e.
    destruct (port_set_spec s k o L X I e) as (s' & L' & h1 & h2 & h3). exists s', L', X. split; [exact h1|]. split; [exact h2|].
    intros _ ap. destruct (h3 ap). auto.
  - (* OConvert *)
    eexists _, L, X. split; [reflexivity|]. split; [|auto]. apply add_cap_Inv; [exact I|cbn; lia].
  - (* OItem *)
    eexists _, L, X. split; [reflexivity|]. split; [|auto]. apply add_cap_Inv; [exact I|cbn; lia].
  - (* OSelf *)
    destruct (nth_error (caps s) k) as [c|] eqn:e; [|exact stay]. destruct (k_own c =? 0); [exact stay|].
    eexists _, L, X. split; [reflexivity|]. split; [|auto]. apply upd_cap_Inv; [exact I|cbn]. apply (i_caps _ _ _ _ I). now apply nth_error_In in e.
  - (* ORead *)
    cbn [careful_op] in C. destruct (nth_error (caps s) k) as [c|] eqn:e; [|exact stay]. destruct (k_own c =? 0); [exact stay|].
    specialize (C c eq_refl). assert (kp : 1 <= k_rc c) by (apply (i_caps _ _ _ _ I); now apply nth_error_In in e).
    destruct (Nat.eqb_spec (k_rc c) 0); [lia|].
    destruct (k_val c) as [| | |o]; [exact stay|exact stay|contradiction|].
    assert (p : 0 < rc s o) by (now apply (held_rc s _ _ _ o I)). rewrite (incref_spec s o p). cbn [bind].
    eexists _, L, X. split; [reflexivity|]. split; [|auto]. exact (py_incref s o _ L X I p).
  - (* ODupCap *)
    destruct (nth_error (caps s) k) as [c|] eqn:e; [|exact stay]. destruct (k_own c =? 0); [exact stay|].
    assert (kp : 1 <= k_rc c) by (apply (i_caps _ _ _ _ I); now apply nth_error_In in e). destruct (Nat.eqb_spec (k_rc c) 0); [lia|].
    eexists _, L, X. split; [reflexivity|]. split; [|auto]. apply upd_cap_Inv; [exact I|cbn; lia].
  - (* ODropCap *)
    cbn [careful_op] in C. destruct (nth_error (caps s) k) as [c|] eqn:e; [|exact stay]. destruct (k_own c =? 0); [exact stay|].
    specialize (C c eq_refl). destruct (Nat.eqb_spec (k_rc c) 0); [lia|]. cbn [k_rc]. destruct (Nat.eqb_spec (k_rc c - 1) 0); [lia|].
    eexists _, L, X. split; [reflexivity|]. split; [|auto]. apply upd_cap_Inv; [exact I|cbn; lia].
  - (* ODelay *)
    destruct (enqueue_spec s (port s) L X I) as [I1 ap1].
    { intros i h. destruct (slot_token _ _ _ _ i I) as (t & et & _); [left; exact h|]. now rewrite et. }
    eexists _, L, X. split; [reflexivity|]. split; [exact I1|auto].
  - (* OForward *)
    destruct (act s) as [i|] eqn:a; [|exact stay].
    destruct (replace_spec s (port s) (Some i) (act s :: astr s :: queue s) L X I) as (s' & L' & r & rs & I1 & ap1); [right; right; left; exact a|].
    rewrite r. cbn [bind]. eexists _, L', X. split; [reflexivity|]. destruct rs as (_ & _ & _ & r4 & r5 & r6 & _). split.
    + apply Inv_slots with s'; try reflexivity. unfold slots. cbn [port act astr queue set_port]. rewrite r4, r5, r6. exact I1.
    + intros _ ap. destruct (ap1 ap). auto.
  - (* OSched *)
    destruct (match v with Some o => owns s o | None => true end) eqn:e; [|exact stay].
    destruct (py_schedule_spec s k v L X I) as (s' & L' & X' & h1 & h2 & h3).
    { intros o ->. now apply owns_spec. }
    exists s', L', X'. split; [exact h1|]. split; [exact h2|]. intros po. apply h3. destruct v; [contradiction|reflexivity].
  - (* OPop *)
    destruct (queue s) as [|t q] eqn:eq; [exact stay|].
    assert (I0 : Inv s (act s :: port s :: astr s :: t :: q) L X).
    { apply Inv_occ with (1 := I). intros i. unfold slots. rewrite eq, !occ_cons. lia. }
    destruct (replace_spec s (act s) t _ L X I0) as (s1 & L1 & r & rs & I1 & ap1); [right; right; right; right; now left|].
    rewrite r. cbn [bind].
    assert (I1' : Inv s1 (t :: t :: port s :: astr s :: q) L1 X).
    { apply Inv_occ with (1 := I1). intros i. rewrite !occ_cons. lia. }
    destruct (done_using_spec _ _ _ _ _ I1') as (s2 & L2 & d & rs2 & I2 & ap2). rewrite d. cbn [bind].
    destruct (rest_trans _ _ _ rs rs2) as (_ & _ & r3 & _ & r5 & _ & _).
    eexists _, L2, X. split; [reflexivity|]. split.
    + apply Inv_slots with s2; try reflexivity. apply Inv_occ with (1 := I2). intros i. unfold slots. cbn [port act astr queue set_queue set_act].
      rewrite r3, r5, !occ_cons. lia.
    + intros _ ap. destruct (ap1 ap) as [l1 a1]. destruct (ap2 a1) as [l2 a2]. subst. auto.
  - (* OExpose *)
    assert (I0 : Inv s (astr s :: port s :: act s :: queue s) L X).
    { apply Inv_occ with (1 := I). intros i. unfold slots. rewrite !occ_cons. lia. }
    destruct (replace_spec s (astr s) (act s) _ L X I0) as (s' & L' & r & rs & I1 & ap1); [right; right; right; now left|].
    rewrite r. cbn [bind]. destruct rs as (_ & _ & r3 & r4 & _ & r6 & _). eexists _, L', X. split; [reflexivity|]. split.
    + apply Inv_slots with s'; try reflexivity. apply Inv_occ with (1 := I1). intros i. unfold slots. cbn [port act astr queue set_astr].
      rewrite r3, r4, r6, !occ_cons. lia.
    + intros _ ap. destruct (ap1 ap). auto.
  - (* OConvertAct *)
    eexists _, L, X. split; [reflexivity|]. split; [|auto]. apply add_cap_Inv; [exact I|cbn; lia].
Qed.

Lemma init_Inv : Inv init (slots init) [] (fun _ => 0) /\ allport init.
Proof.
  split.
  - constructor; cbn.
    + reflexivity.
    + intros [|i]; cbn; [reflexivity|]. destruct i; reflexivity.
    + intros [|[|i]] t e v; cbn in *; try discriminate. injection e as <-. cbn. lia.
    + reflexivity.
    + contradiction.
  - intros [|[|i]] t e v; cbn in *; try discriminate. injection e as <-. now contradict v.
Qed.

Lemma run_spec l : forall s L X, Inv s (slots s) L X -> careful s l ->
  exists s' L' X', run s l = Ok s' /\ Inv s' (slots s') L' X' /\ (Forall ports_only l -> allport s -> L' = L /\ X' = X /\ allport s').
Proof.
  induction l as [|x l IH]; intros s L X I C.
  - exists s, L, X. split; [reflexivity|]. split; [exact I|auto].
  - destruct C as [c C]. destruct (step_spec s x L X I c) as (s1 & L1 & X1 & e & I1 & p1).
    destruct (IH s1 L1 X1 I1 (C s1 e)) as (s2 & L2 & X2 & r & I2 & p2).
    exists s2, L2, X2. cbn [run]. rewrite e. cbn [bind]. split; [exact r|]. split; [exact I2|].
    intros po ap. inversion po as [|? ? px pl]; subst. destruct (p1 px ap) as (-> & -> & ap1). exact (p2 pl ap1).
Qed.

Lemma released s X : Inv s (slots s) [] X -> (forall i, X i = 0) -> forall o, 0 < rc s o -> held s o.
Proof.
  intros I x o p. rewrite (i_rc _ _ _ _ I) in p. change (cnt o []) with 0 in p.
  destruct (Nat.eq_dec (cnt o (py s)) 0) as [z|z]; [|left; apply cnt_pos; lia].
  right. assert (q : 0 < sumf (val_is o) (toks s)) by lia. apply sum_val_pos in q. destruct q as (i & t & e & v).
  exists i, t. split; [|now split]. apply occ_pos. pose proof (i_refs _ _ _ _ I i) as r. rewrite x in r. unfold refs in r. rewrite e in r.
  assert (0 < t_refs t) by (apply (i_val _ _ _ _ I i t e); rewrite v; discriminate). lia.
Qed.

(** Objects for channels have one reference that nobody owns. *)
Definition surplus (s : st) : Prop := forall c, In c (caps s) -> k_gc c = false -> k_rc c = S (k_own c).
Lemma surplus_caps s s' : caps s' = caps s -> surplus s -> surplus s'.
Proof. unfold surplus. now intros ->. Qed.
Lemma decref_caps s o s' : decref s o = Ok s' -> caps s' = caps s.
Proof. unfold decref. destruct (rc s o =? 0); [discriminate|]. now intros [= <-]. Qed.
Lemma incref_caps s o s' : incref s o = Ok s' -> caps s' = caps s.
Proof. unfold incref. destruct (rc s o =? 0); [discriminate|]. now intros [= <-]. Qed.
Lemma free_value_caps s i t s' : free_value s i t = Ok s' -> caps s' = caps s.
Proof.
  unfold free_value. destruct (t_val t) as [o|]; [destruct (t_dtor t)|]; cbn [bind]; try (now intros [= <-]).
  destruct (decref s o) as [s1|] eqn:e; cbn [bind]; [|discriminate]. intros [= <-]. cbn. now apply decref_caps in e.
Qed.
Lemma done_using_caps s x s' : done_using s x = Ok s' -> caps s' = caps s.
Proof.
  unfold done_using. destruct x as [i|]; [|now intros [= <-]]. destruct (nth_error (toks s) i) as [t|]; [|now intros [= <-]].
  destruct (t_refs t =? 0); [now intros [= <-]|]. cbn zeta. match goal with |- (if ?b then _ else _) = _ -> _ => destruct b end; [apply free_value_caps|now intros [= <-]].
Qed.
Lemma hold_caps s x : caps (hold s x) = caps s.
Proof. unfold hold. destruct x as [i|]; [|reflexivity]. now destruct (nth_error (toks s) i). Qed.
Lemma replace_caps s a b s' : replace s a b = Ok s' -> caps s' = caps s.
Proof.
  unfold replace. destruct (same a b); [now intros [= <-]|]. destruct (done_using s a) as [s1|] eqn:e; cbn [bind]; [|discriminate].
  intros [= <-]. rewrite hold_caps. now apply done_using_caps in e.
Qed.
Lemma surplus_upd s k c c0 : surplus s -> nth_error (caps s) k = Some c0 ->
  (k_gc c = false -> k_gc c0 = false /\ k_rc c + k_own c0 = k_rc c0 + k_own c) -> surplus (set_caps s (upd k c (caps s))).
Proof.
  intros q e h y hy g. cbn in hy. apply in_upd in hy. destruct hy as [->|hy]; [|now apply q].
  destruct (h g) as [g0 r]. assert (z : k_rc c0 = S (k_own c0)) by (apply q; [now apply nth_error_In in e|exact g0]). lia.
Qed.
Lemma surplus_val s k v : surplus s -> surplus (set_val s k v).
Proof.
  intros q. unfold set_val. destruct (nth_error (caps s) k) as [c|] eqn:e; [|exact q].
  apply surplus_upd with (2 := e); [exact q|cbn]. auto.
Qed.

Lemma surplus_step s x s' : surplus s -> no_self x -> step s x = Ok s' -> surplus s'.
Proof.
  intros q ns. destruct x; cbn [step].
  - now intros [= <-].
  - destruct (owns s o); [|now intros [= <-]]. destruct (incref s o) as [s1|] eqn:e; cbn [bind]; [|discriminate]. intros [= <-].
    apply incref_caps in e. now apply surplus_caps with s.
  - destruct (owns s o); [|now intros [= <-]]. destruct (decref s o) as [s1|] eqn:e; cbn [bind]; [|discriminate]. intros [= <-].
    apply decref_caps in e. now apply surplus_caps with s.
  - destruct (owns s o); [|now intros [= <-]]. unfold port_set. destruct (done_using s (port s)) as [s1|] eqn:e; cbn [bind]; [|discriminate].
    match goal with |- context [incref ?a o] => destruct (incref a o) as [s2|] eqn:e2 end; cbn [bind]; [|discriminate]. intros [= <-].
    apply surplus_val. apply incref_caps in e2. apply done_using_caps in e. apply surplus_caps with s; [|exact q]. rewrite e2. exact e.
  - intros [= <-] y hy g. cbn in hy. apply in_app_or in hy. destruct hy as [hy|[<-|[]]]; [now apply q|discriminate].
  - intros [= <-] y hy g. cbn in hy. apply in_app_or in hy. destruct hy as [hy|[<-|[]]]; [now apply q|reflexivity].
  - contradiction.
  - destruct (nth_error (caps s) k) as [c|]; [|now intros [= <-]]. destruct (k_own c =? 0); [now intros [= <-]|]. destruct (k_rc c =? 0); [discriminate|].
    destruct (k_val c) as [| | |o]; [now intros [= <-]|now intros [= <-]|discriminate|].
    destruct (incref s o) as [s1|] eqn:e; cbn [bind]; [|discriminate]. intros [= <-]. apply incref_caps in e. now apply surplus_caps with s.
  - destruct (nth_error (caps s) k) as [c|] eqn:e; [|now intros [= <-]]. destruct (k_own c =? 0); [now intros [= <-]|]. destruct (k_rc c =? 0); [discriminate|].
    intros [= <-]. apply surplus_upd with (2 := e); [exact q|cbn]. intros g. split; [exact g|lia].
  - destruct (nth_error (caps s) k) as [c|] eqn:e; [|now intros [= <-]]. destruct (Nat.eqb_spec (k_own c) 0); [now intros [= <-]|].
    destruct (Nat.eqb_spec (k_rc c) 0); [discriminate|]. cbn [k_rc].
    assert (q1 : surplus (set_caps s (upd k (mkCap (k_val c) (k_rc c - 1) (k_own c - 1) (k_gc c)) (caps s)))).
    { apply surplus_upd with (2 := e); [exact q|cbn]. intros g. split; [exact g|lia]. }
    destruct (Nat.eqb_spec (k_rc c - 1) 0) as [z|z]; [|now intros [= <-]]. unfold dealloc. cbn [k_val k_gc].
    destruct (drop_value _ (k_val c)) as [s2|] eqn:d; cbn [bind]; [|discriminate]. destruct (k_gc c) eqn:g; [discriminate|].
    exfalso. assert (k_rc c = S (k_own c)) by (apply q; [now apply nth_error_In in e|exact g]). lia.
  - intros [= <-]. apply surplus_caps with s; [|exact q]. cbn. apply hold_caps.
  - destruct (act s) as [i|]; [|now intros [= <-]]. destruct (replace s (port s) (Some i)) as [s1|] eqn:e; cbn [bind]; [|discriminate].
    intros [= <-]. apply replace_caps in e. now apply surplus_caps with s.
  - destruct (match v with Some o => owns s o | None => true end); [|now intros [= <-]]. unfold py_schedule.
    assert (fin : forall s1 t, surplus s1 -> Ok (set_queue (hold s1 t) (queue s1 ++ [t])) = Ok s' -> surplus s').
    { intros s1 t q1 [= <-]. apply surplus_caps with s1; [|exact q1]. cbn. apply hold_caps. }
    destruct v as [o|]; [destruct (act s) as [i|]|]; try (cbn [bind]; now apply fin).
    unfold action_token. destruct (nth_error (toks s) i) as [t|]; [|discriminate]. destruct (t_refs t =? 1).
    + destruct (free_value s i t) as [s1|] eqn:e; cbn [bind]; [|discriminate]. cbn [fst snd].
      match goal with |- context [incref ?a o] => destruct (incref a o) as [s2|] eqn:e2 end; cbn [bind]; [|discriminate].
      apply fin. apply surplus_val. apply incref_caps in e2. apply free_value_caps in e. apply surplus_caps with s; [|exact q]. rewrite e2. exact e.
    + cbn [bind fst snd]. match goal with |- context [incref ?a o] => destruct (incref a o) as [s2|] eqn:e2 end; cbn [bind]; [|discriminate].
      apply fin. apply surplus_val. apply incref_caps in e2. apply surplus_caps with s; [|exact q]. rewrite e2. reflexivity.
  - destruct (queue s) as [|t r]; [now intros [= <-]|]. destruct (replace s (act s) t) as [s1|] eqn:e; cbn [bind]; [|discriminate].
    destruct (done_using s1 t) as [s2|] eqn:e2; cbn [bind]; [|discriminate]. intros [= <-]. apply replace_caps in e. apply done_using_caps in e2.
    apply surplus_caps with s; [|exact q]. cbn. congruence.
  - destruct (replace s (astr s) (act s)) as [s1|] eqn:e; cbn [bind]; [|discriminate]. intros [= <-]. apply replace_caps in e. now apply surplus_caps with s.
  - intros [= <-] y hy g. cbn in hy. apply in_app_or in hy. destruct hy as [hy|[<-|[]]]; [now apply q|discriminate].
Qed.
Lemma surplus_run l : forall s s', surplus s -> Forall no_self l -> run s l = Ok s' -> surplus s'.
Proof.
  induction l as [|x l IH]; intros s s' q f r; cbn [run] in r; [now injection r as <-|].
  inversion f; subst. destruct (step s x) as [s1|] eqn:e; cbn [bind] in r; [|discriminate].
  apply IH with s1; [eapply surplus_step; eassumption|assumption|exact r].
Qed.

(** The value of a token that an event holds does not change. *)
Definition tv (s : st) (j : nat) : option nat := token_value s (Some j).
Lemma tv_upd s s' i j t t0 : toks s' = upd i t (toks s) -> nth_error (toks s) i = Some t0 -> (i = j -> t_val t = t_val t0) -> tv s' j = tv s j.
Proof.
  intros e e0 h. unfold tv, token_value. rewrite e, (upd_nth_in i j t t0) by exact e0.
  destruct (Nat.eqb_spec i j) as [ij|ij]; [|reflexivity]. rewrite (h ij). subst j. now rewrite e0.
Qed.
Lemma tv_toks s s' j : toks s' = toks s -> tv s' j = tv s j.
Proof. unfold tv, token_value. now intros ->. Qed.
Lemma free_value_toks s i t s' : free_value s i t = Ok s' -> toks s' = upd i (mkTok None (t_refs t) (t_dtor t)) (toks s).
Proof.
  unfold free_value. destruct (t_val t) as [o|]; [destruct (t_dtor t)|]; cbn [bind]; try (now intros [= <-]).
  unfold decref. destruct (rc s o =? 0); cbn [bind]; [discriminate|]. now intros [= <-].
Qed.
Lemma done_using_tv s x sl L X s' j : Inv s (x :: sl) L X -> In (Some j) sl -> done_using s x = Ok s' -> tv s' j = tv s j.
Proof.
  intros I h. destruct x as [i|]; cbn [done_using]; [|now intros [= <-]].
  destruct (nth_error (toks s) i) as [t|] eqn:e; [|now intros [= <-]].
  destruct (Nat.eqb_spec (t_refs t) 0); [now intros [= <-]|]. cbn [t_refs].
  destruct (Nat.eqb_spec (t_refs t - 1) 0) as [z|z]; intros f.
  - apply free_value_toks in f. apply tv_upd with (1 := f) (2 := e). intros ij. exfalso. subst j.
    pose proof (i_refs _ _ _ _ I i) as r. unfold refs in r. rewrite e, occ_cons in r. cbn [slot_is] in r. rewrite is_same in r.
    apply occ_pos in h. lia.
  - injection f as <-. eapply tv_upd; [reflexivity|exact e|reflexivity].
Qed.
Lemma hold_tv s x j : tv (hold s x) j = tv s j.
Proof.
  unfold hold. destruct x as [i|]; [|reflexivity]. destruct (nth_error (toks s) i) as [t|] eqn:e; [|reflexivity].
  eapply tv_upd; [reflexivity|exact e|reflexivity].
Qed.
Lemma replace_tv s old new sl L X s' j : Inv s (old :: sl) L X -> In (Some j) sl -> replace s old new = Ok s' -> tv s' j = tv s j.
Proof.
  intros I h. unfold replace. destruct (same old new); [now intros [= <-]|]. destruct (done_using s old) as [s1|] eqn:e; cbn [bind]; [|discriminate].
  intros [= <-]. rewrite hold_tv. now apply (done_using_tv s old sl L X).
Qed.
Lemma tv_app s s' x j : toks s' = toks s ++ x -> nth_error (toks s) j <> None -> tv s' j = tv s j.
Proof. intros e h. unfold tv, token_value. rewrite e, nth_error_app1; [reflexivity|now apply nth_error_Some]. Qed.

Lemma done_using_queue s x s' : done_using s x = Ok s' -> queue s' = queue s.
Proof.
  unfold done_using. destruct x as [i|]; [|now intros [= <-]]. destruct (nth_error (toks s) i) as [t|]; [|now intros [= <-]].
  destruct (t_refs t =? 0); [now intros [= <-]|]. cbn zeta. match goal with |- (if ?b then _ else _) = _ -> _ => destruct b end; [|now intros [= <-]].
  unfold free_value, decref. destruct (t_val _); [destruct (t_dtor _)|]; cbn [bind]; try (now intros [= <-]).
  match goal with |- context [if ?b then _ else _] => destruct b end; cbn [bind]; [discriminate|]. now intros [= <-].
Qed.
Lemma replace_queue s a b s' : replace s a b = Ok s' -> queue s' = queue s.
Proof.
  unfold replace. destruct (same a b); [now intros [= <-]|]. destruct (done_using s a) as [s1|] eqn:e; cbn [bind]; [|discriminate].
  intros [= <-]. apply done_using_queue in e. destruct (hold_slots s1 b) as [_ ->]. exact e.
Qed.
Lemma set_val_queue s k v : queue (set_val s k v) = queue s /\ toks (set_val s k v) = toks s.
Proof. unfold set_val. destruct (nth_error (caps s) k); now split. Qed.

Lemma step_keep s x L X s' pre j post : Inv s (slots s) L X -> step s x = Ok s' -> queue s = pre ++ Some j :: post -> is_pop x <= length pre ->
  tv s' j = tv s j /\ exists post', queue s' = skipn (is_pop x) pre ++ Some j :: post'.
Proof.
  intros I e q h.
  assert (inq : In (Some j) (queue s)) by (rewrite q; apply in_or_app; right; now left).
  assert (tok : nth_error (toks s) j <> None).
  { destruct (slot_token _ _ _ _ j I) as (t & et & _); [unfold slots; cbn; auto|]. now rewrite et. }
  assert (samest : tv s j = tv s j /\ exists post', queue s = pre ++ Some j :: post') by eauto.
  assert (Qt : forall s2, toks s2 = toks s -> queue s2 = queue s -> tv s2 j = tv s j /\ exists post', queue s2 = pre ++ Some j :: post').
  { intros s2 h1 h2. split; [now apply tv_toks|]. exists post. congruence. }
  destruct x; cbn [step is_pop skipn] in *.
  - injection e as <-. now apply Qt.
  - destruct (owns s o); [|now injection e as <-]. unfold incref in e. destruct (rc s o =? 0); cbn [bind] in e; [discriminate|]. injection e as <-. now apply Qt.
  - destruct (owns s o); [|now injection e as <-]. unfold decref in e. destruct (rc s o =? 0); cbn [bind] in e; [discriminate|]. injection e as <-. now apply Qt.
  - destruct (owns s o); [|now injection e as <-]. unfold port_set in e. destruct (done_using s (port s)) as [s1|] eqn:d; cbn [bind] in e; [|discriminate].
    unfold incref in e. match type of e with context [if ?b then _ else _] => destruct b end; cbn [bind] in e; [discriminate|]. injection e as <-.
    assert (t1 : tv s1 j = tv s j).
    { apply (done_using_tv s (port s) (act s :: astr s :: queue s) L X); [exact I|cbn; auto|exact d]. }
    destruct (done_using_spec _ _ _ _ _ I) as (s1' & L1 & d' & _ & I1 & _). rewrite d in d'. injection d' as <-.
    pose proof (done_using_queue _ _ _ d) as q1. match goal with |- context [set_val ?a k ?b] => destruct (set_val_queue a k b) as [z1 z2] end.
    split.
    + transitivity (tv s1 j); [|exact t1]. eapply tv_app; [rewrite z2; reflexivity|].
      destruct (slot_token _ _ _ _ j I1) as (t & et & _); [cbn; auto|]. now rewrite et.
    + exists post. rewrite z1. cbn [queue set_rc set_port set_toks]. congruence.
  - injection e as <-. now apply Qt.
  - injection e as <-. now apply Qt.
  - destruct (nth_error (caps s) k) as [c|]; [|now injection e as <-]. destruct (k_own c =? 0); injection e as <-; now apply Qt.
  - destruct (nth_error (caps s) k) as [c|]; [|now injection e as <-]. destruct (k_own c =? 0); [now injection e as <-|]. destruct (k_rc c =? 0); [discriminate|].
    destruct (k_val c) as [| | |o]; [now injection e as <-|now injection e as <-|discriminate|].
    unfold incref in e. destruct (rc s o =? 0); cbn [bind] in e; [discriminate|]. injection e as <-. now apply Qt.
  - destruct (nth_error (caps s) k) as [c|]; [|now injection e as <-]. destruct (k_own c =? 0); [now injection e as <-|]. destruct (k_rc c =? 0); [discriminate|].
    injection e as <-. now apply Qt.
  - destruct (nth_error (caps s) k) as [c|]; [|now injection e as <-]. destruct (k_own c =? 0); [now injection e as <-|]. destruct (k_rc c =? 0); [discriminate|].
    cbn [k_rc] in e. destruct (k_rc c - 1 =? 0); [|injection e as <-; now apply Qt]. unfold dealloc, drop_value in e. cbn [k_val k_gc] in e.
    destruct (k_val c) as [| | |o]; cbn [bind] in e; try discriminate.
    + destruct (k_gc c); [discriminate|]. injection e as <-. now apply Qt.
    + destruct (k_gc c); [discriminate|]. injection e as <-. now apply Qt.
    + unfold decref in e. match type of e with context [if ?b then UB else _] => destruct b end; cbn [bind] in e; [discriminate|].
      destruct (k_gc c); [discriminate|]. injection e as <-. now apply Qt.
  - injection e as <-. split; [exact (hold_tv s (port s) j)|]. cbn [queue set_queue]. exists (post ++ [port s]). rewrite q. now rewrite <- app_assoc.
  - destruct (act s) as [i|] eqn:a; [|now injection e as <-]. destruct (replace s (port s) (Some i)) as [s1|] eqn:r; cbn [bind] in e; [|discriminate].
    injection e as <-. split.
    + apply (replace_tv s (port s) (Some i) (act s :: astr s :: queue s) L X s1 j I); [cbn; auto|exact r].
    + apply replace_queue in r. cbn [queue set_port]. exists post. congruence.
  - destruct (match v with Some o => owns s o | None => true end) eqn:ow; [|now injection e as <-]. unfold py_schedule in e.
    assert (fin : forall s1 t, tv s1 j = tv s j -> queue s1 = queue s -> Ok (set_queue (hold s1 t) (queue s1 ++ [t])) = Ok s' ->
              tv s' j = tv s j /\ exists post', queue s' = pre ++ Some j :: post').
    { intros s1 t t1 q1 [= <-]. split; [rewrite <- t1; exact (hold_tv s1 t j)|]. cbn [queue set_queue]. exists (post ++ [t]). rewrite q1, q. now rewrite <- app_assoc. }
    destruct v as [o|]; [destruct (act s) as [i|] eqn:a|]; try (cbn [bind] in e; exact (fin s None eq_refl eq_refl e)).
    unfold action_token in e. destruct (nth_error (toks s) i) as [t|] eqn:et; [|discriminate]. destruct (Nat.eqb_spec (t_refs t) 1) as [r1|r1].
    + destruct (free_value s i t) as [s1|] eqn:f; cbn [bind fst snd] in e; [|discriminate].
      unfold incref in e. match type of e with context [if ?b then UB else _] => destruct b end; cbn [bind] in e; [discriminate|].
      match type of e with context [set_val ?a k ?b] => destruct (set_val_queue a k b) as [z1 z2]; apply (fin (set_val a k b) (Some i)); [| |exact e] end.
      * assert (ij : i <> j).
        { intros ->. pose proof (i_refs _ _ _ _ I j) as rr. unfold refs in rr. rewrite et in rr. unfold slots in rr. rewrite !occ_cons, a in rr. cbn [slot_is] in rr.
          rewrite is_same in rr. apply occ_pos in inq. lia. }
        unfold tv, token_value. rewrite z2. cbn [toks set_rc set_toks]. rewrite (free_value_toks _ _ _ _ f), !upd_nth.
        destruct (Nat.eqb_spec i j); [contradiction|reflexivity].
      * rewrite z1. cbn [queue set_rc set_toks]. unfold free_value, decref in f. destruct (t_val t) as [o'|]; [destruct (t_dtor t)|]; cbn [bind] in f; try (now injection f as <-).
        destruct (rc s o' =? 0); cbn [bind] in f; [discriminate|]. now injection f as <-.
    + cbn [bind fst snd] in e. unfold incref in e. match type of e with context [if ?b then UB else _] => destruct b end; cbn [bind] in e; [discriminate|].
      match type of e with context [set_val ?a k ?b] => destruct (set_val_queue a k b) as [z1 z2]; apply (fin (set_val a k b) (Some (length (toks s)))); [| |exact e] end.
      * eapply tv_app; [rewrite z2; reflexivity|exact tok].
      * now rewrite z1.
  - rewrite q in e. destruct pre as [|t pre]; [cbn in h; lia|]. cbn [app] in e.
    destruct (replace s (act s) t) as [s1|] eqn:r; cbn [bind] in e; [|discriminate]. destruct (done_using s1 t) as [s2|] eqn:d; cbn [bind] in e; [|discriminate].
    injection e as <-.
    assert (I0 : Inv s (act s :: port s :: astr s :: t :: (pre ++ Some j :: post)) L X).
    { apply Inv_occ with (1 := I). intros i. unfold slots. rewrite q. cbn [app]. rewrite !occ_cons. lia. }
    destruct (replace_spec s (act s) t _ L X I0) as (s1' & L1 & r' & rs & I1 & ap1); [right; right; right; right; now left|]. rewrite r in r'. injection r' as <-.
    assert (I1' : Inv s1 (t :: t :: port s :: astr s :: (pre ++ Some j :: post)) L1 X).
    { apply Inv_occ with (1 := I1). intros i. rewrite !occ_cons. lia. }
    assert (inp : In (Some j) (pre ++ Some j :: post)) by (apply in_or_app; right; now left).
    split; [|exists post; reflexivity].
    transitivity (tv s2 j); [reflexivity|]. rewrite (done_using_tv s1 t _ L1 X s2 j I1'); [|cbn; auto|exact d].
    rewrite (replace_tv s (act s) t _ L X s1 j I0); [reflexivity|cbn; auto|exact r].
  - destruct (replace s (astr s) (act s)) as [s1|] eqn:r; cbn [bind] in e; [|discriminate]. injection e as <-. split.
    + assert (I0 : Inv s (astr s :: port s :: act s :: queue s) L X).
      { apply Inv_occ with (1 := I). intros i. unfold slots. rewrite !occ_cons. lia. }
      apply (replace_tv s (astr s) (act s) _ L X s1 j I0); [cbn; auto|exact r].
    + apply replace_queue in r. cbn [queue set_astr]. exists post. congruence.
  - injection e as <-. now apply Qt.
Qed.

Lemma run_keep l : forall s L X s' pre j post, Inv s (slots s) L X -> careful s l -> run s l = Ok s' -> queue s = pre ++ Some j :: post -> pops l <= length pre ->
  tv s' j = tv s j /\ exists post', queue s' = skipn (pops l) pre ++ Some j :: post'.
Proof.
  induction l as [|x l IH]; intros s L X s' pre j post I C r q h; cbn [run] in r.
  - injection r as <-. cbn. split; [reflexivity|eauto].
  - destruct C as [c C]. destruct (step_spec s x L X I c) as (s1 & L1 & X1 & e & I1 & _). rewrite e in r. cbn [bind] in r.
    change (pops (x :: l)) with (is_pop x + pops l) in *.
    destruct (step_keep s x L X s1 pre j post I e q) as [t1 (p1 & q1)]; [lia|].
    destruct (IH s1 L1 X1 s' _ j p1 I1 (C s1 e) r q1) as [t2 (p2 & q2)]; [rewrite skipn_length; lia|].
    split; [congruence|]. exists p2. rewrite q2. f_equal.
    assert (sk : forall n m (a : list (option nat)), skipn m (skipn n a) = skipn (n + m) a).
    { induction n as [|n IHn]; intros m a; [reflexivity|]. destruct a; [now destruct m|]. apply IHn. }
    apply sk.
Qed.

Lemma sched_value s k o L X i : Inv s (slots s) L X -> In o (py s) -> act s = Some i ->
  exists s1 j, step s (OSched k (Some o)) = Ok s1 /\ queue s1 = queue s ++ [Some j] /\ tv s1 j = Some o.
Proof.
  intros I ho a. cbn [step]. rewrite (proj2 (owns_spec s o) ho).
  destruct (action_token_spec s i o L X I) as (s1 & j & L' & X' & e & p & nj & sl & I1); [right; left; exact a|exact ho|].
  unfold py_schedule. rewrite a, e. cbn [bind fst snd]. rewrite (incref_spec s1 o p). cbn [bind].
  destruct (set_val_queue (set_rc s1 o (S (rc s1 o))) k (CObj o)) as [z1 z2].
  eexists _, j. split; [reflexivity|]. split.
  - cbn [queue set_queue]. rewrite z1. cbn. unfold slots in sl. now injection sl as _ _ _ ->.
  - transitivity (tv s1 j).
    { etransitivity; [exact (hold_tv _ (Some j) j)|]. apply tv_toks. now rewrite z2. }
    unfold action_token in e. destruct (nth_error (toks s) i) as [t|] eqn:et; [|discriminate]. destruct (t_refs t =? 1).
    + destruct (free_value s i t) as [s2|] eqn:f; cbn [bind] in e; [|discriminate]. injection e as <- <-.
      unfold tv, token_value. cbn [toks set_toks]. rewrite upd_nth, Nat.eqb_refl. rewrite (free_value_toks _ _ _ _ f), upd_length.
      apply nth_lt in et. apply Nat.ltb_lt in et. now rewrite et.
    + injection e as <- <-. unfold tv, token_value. cbn [toks set_toks]. now rewrite nth_error_app2, Nat.sub_diag by lia.
Qed.

Lemma pop_value s L X j q : Inv s (slots s) L X -> queue s = Some j :: q ->
  exists s', step s OPop = Ok s' /\ act s' = Some j /\ tv s' j = tv s j.
Proof.
  intros I e. cbn [step]. rewrite e.
  assert (I0 : Inv s (act s :: port s :: astr s :: Some j :: q) L X).
  { apply Inv_occ with (1 := I). intros i. unfold slots. rewrite e, !occ_cons. lia. }
  destruct (replace_spec s (act s) (Some j) _ L X I0) as (s1 & L1 & r & rs & I1 & ap1); [right; right; right; right; now left|].
  rewrite r. cbn [bind].
  assert (I1' : Inv s1 (Some j :: Some j :: port s :: astr s :: q) L1 X).
  { apply Inv_occ with (1 := I1). intros i. rewrite !occ_cons. lia. }
  destruct (done_using_spec _ _ _ _ _ I1') as (s2 & L2 & d & rs2 & I2 & ap2). rewrite d. cbn [bind].
  eexists. split; [reflexivity|]. split; [reflexivity|]. transitivity (tv s2 j); [reflexivity|].
  rewrite (done_using_tv s1 (Some j) _ L1 X s2 j I1'); [|cbn; auto|exact d].
  apply (replace_tv s (act s) (Some j) _ L X s1 j I0); [cbn; auto|exact r].
Qed.

Lemma expose_value s L X j : Inv s (slots s) L X -> act s = Some j ->
  exists s', step s OExpose = Ok s' /\ act s' = Some j /\ astr s' = Some j /\ tv s' j = tv s j.
Proof.
  intros I a. cbn [step].
  assert (I0 : Inv s (astr s :: port s :: act s :: queue s) L X).
  { apply Inv_occ with (1 := I). intros i. unfold slots. rewrite !occ_cons. lia. }
  destruct (replace_spec s (astr s) (act s) _ L X I0) as (s' & L' & r & rs & I1 & ap1); [right; right; right; now left|].
  rewrite r. cbn [bind]. destruct rs as (_ & _ & r3 & r4 & _ & r6 & _). eexists. split; [reflexivity|]. split; [cbn; congruence|]. split; [exact a|].
  apply (replace_tv s (astr s) (act s) _ L X s' j I0); [right; left; exact a|exact r].
Qed.
