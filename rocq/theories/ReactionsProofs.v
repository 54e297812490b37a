(** Lemmas for C26. *)
From Coq Require Import List Arith Bool ZArith Relations Permutation Lia.
From Verif Require Import Pqueue PqueueProofs Reactions ReactionsSpec.
Import ListNotations.
Open Scope nat_scope.

Section S.
Variable P : rprog.
Variable pick : picker.
Variable beh : behaviour.
Variable init : list nat.
Hypothesis Hpick : picks_least P pick.
Hypothesis Hlev : leveled P.
Hypothesis Hlast : last_ok P init.

Lemma up_index u d : upstream P u d -> (rp_index P u < rp_index P d)%Z.
Proof. induction 1 as [u d H|u v d _ IH1 _ IH2]; [apply Hlev, H|lia]. Qed.
Lemma up_irrefl u : ~ upstream P u u.
Proof. intros H. apply up_index in H. lia. Qed.
Lemma up_edge r d e : edge P r d -> upstream P d e -> upstream P r e.
Proof. intros H K. eapply t_trans; [apply t_step, H|exact K]. Qed.
(** The last edge of a path. *)
Lemma up_last x d : upstream P x d -> exists u, edge P u d /\ (x = u \/ upstream P x u).
Proof.
  intros H. apply clos_trans_tn1 in H. destruct H as [d H|u d H K]; [exists x; auto|]. exists u. split; [exact H|]. right. apply clos_tn1_trans. exact K.
Qed.

Lemma present_in i l b d : In d (present_from i l b) -> exists x, In x l /\ In d x.
Proof.
  revert i. induction l as [|x l IH]; intros i H; [destruct H|]. cbn in H. apply in_app_or in H. destruct H as [H|H].
  - destruct (b i); [|destruct H]. exists x. split; [left; reflexivity|exact H].
  - destruct (IH _ H) as (y & A & B). exists y. split; [right; exact A|exact B].
Qed.
Lemma produced_edge h r d : In d (produced P beh h r) -> edge P r d.
Proof. apply present_in. Qed.

(** Queue and status agree. *)
Record wf (s : rst) : Prop := {
  wf_q : NoDup (rs_q s);
  wf_st : forall x, rs_st s x = queued <-> In x (rs_q s);
  wf_run : forall x, rs_st s x = running -> In x (rs_hist s);
  wf_hist : NoDup (rs_hist s);
  wf_sep : forall x e, In x (rs_q s) -> In e (rs_hist s) -> x <> e /\ ~ upstream P x e;
  wf_trig : forall x, In x (rs_q s) -> triggered P beh init (rs_hist s) x;
  wf_caus : forall a d b, rs_hist s = a ++ d :: b -> triggered P beh init a d;
  wf_prec : forall a x b y, rs_hist s = a ++ x :: b -> In y b -> ~ upstream P y x
}.
Lemma trig_ext h e d : triggered P beh init h d -> triggered P beh init (h ++ e) d.
Proof. intros [H|(a & r & b & -> & H)]; [left; exact H|]. right. exists a, r, (b ++ e). rewrite <- app_assoc. auto. Qed.

Lemma trigger_spec s r : rs_hist (trigger s r) = rs_hist s /\ (forall x, In x (rs_q (trigger s r)) <-> In x (rs_q s) \/ x = r /\ rs_st s r = inactive).
Proof.
  unfold trigger. destruct (rs_st s r) eqn:E; (split; [reflexivity|]); intros x; cbn; [|intuition discriminate|intuition discriminate]. intuition congruence.
Qed.
Lemma wf_trigger s r : wf s -> ~ In r (rs_hist s) -> (forall e, In e (rs_hist s) -> ~ upstream P r e) -> triggered P beh init (rs_hist s) r ->
  wf (trigger s r) /\ rs_hist (trigger s r) = rs_hist s /\ forall x, In x (rs_q (trigger s r)) <-> In x (rs_q s) \/ x = r.
Proof.
  intros [A B C D E F G O] Hn Hu Ht. unfold trigger. destruct (rs_st s r) eqn:Es.
  - split; [|split; [reflexivity|intros x; cbn; intuition congruence]]. constructor; cbn [rs_q rs_st rs_hist]; try assumption.
    + constructor; [|exact A]. intros K. apply B in K. congruence.
    + intros x. destruct (Nat.eq_dec x r) as [->|N]; [rewrite upd_eq; cbn; tauto|]. rewrite upd_neq by congruence. rewrite B. cbn. intuition congruence.
    + intros x. destruct (Nat.eq_dec x r) as [->|N]; [rewrite upd_eq; discriminate|]. rewrite upd_neq by congruence. apply C.
    + intros x e [<-|Hx] He; [split; [intros ->; contradiction|apply Hu, He]|apply E; assumption].
    + intros x [<-|Hx]; [exact Ht|apply F, Hx].
  - split; [constructor; assumption|]. split; [reflexivity|]. intros x. split; [auto|]. intros [Hx| ->]; [exact Hx|]. apply B, Es.
  - exfalso. apply Hn, C, Es.
Qed.

(** The loop over downstream reactions. *)
Lemma fold_cand r : forall l s0 s c n s' cand n', fold_left (down_step P r) l (s, c, n) = (s', cand, n') ->
  (c = None -> n = 0 -> s = s0) -> (c <> None -> s = s0 /\ n = 1) ->
  (forall d, c = Some d -> rp_last P d = Some r) ->
  match cand with
  | Some d => s' = s0 /\ rp_last P d = Some r /\ (forall x, In x l -> x = d) /\ (c = Some d \/ c = None /\ n = 0 /\ In d l)
  | None => True
  end.
Proof.
  induction l as [|d l IH]; intros s0 s c n s' cand n' H H1 H2 H3; cbn [fold_left] in H.
  - injection H as <- <- <-. destruct c as [d|]; [|exact I]. destruct (H2 ltac:(discriminate)) as (-> & _). repeat split; auto; intros x [].
  - destruct cand as [dc|]; [|exact I]. unfold down_step at 2 in H. destruct (opt_is c d) eqn:Ec.
    + destruct c as [c|]; [|discriminate]. cbn in Ec. apply Nat.eqb_eq in Ec. subst d. destruct (IH _ _ _ _ _ _ _ H H1 H2 H3) as (A & B & C & [D|(D & _)]); [|discriminate]. injection D as ->.
      repeat split; auto. intros x [<-|Hx]; [reflexivity|apply C, Hx].
    + destruct ((S n =? 1) && opt_is (rp_last P d) r) eqn:En.
      * apply andb_true_iff in En. destruct En as (En & El). apply Nat.eqb_eq in En. assert (n = 0) by lia. subst n.
        assert (Hc : c = None) by (destruct c; [destruct (H2 ltac:(discriminate)); lia|reflexivity]). subst c.
        assert (Hl : rp_last P d = Some r) by (destruct (rp_last P d) as [m|]; [cbn in El; apply Nat.eqb_eq in El; congruence|discriminate]).
        destruct (IH s0 _ _ _ _ _ _ H) as (A & B & C & [D|(D & _)]).
        -- discriminate.
        -- intros _. split; [apply H1; reflexivity|reflexivity].
        -- intros d0 E. injection E as <-. exact Hl.
        -- injection D as <-. repeat split; auto. intros x [<-|Hx]; [reflexivity|apply C, Hx]. right. repeat split; auto. left; reflexivity.
        -- discriminate.
      * (* from here on no candidate can appear *)
        exfalso. clear - H. revert H. set (s1 := trigger _ d). clearbody s1. assert (Hn : S n <> 0) by lia. revert Hn. generalize (S n). clear. intros m Hm. revert s1 m Hm.
        induction l as [|d l IH]; intros s1 m Hm H; cbn [fold_left] in H; [discriminate|]. unfold down_step at 2 in H. cbn [opt_is] in H.
        destruct (S m =? 1) eqn:E; [apply Nat.eqb_eq in E; lia|]. cbn [andb] in H. eapply IH; [|exact H]. lia.
Qed.

(** Without a candidate left, everything in the list has been triggered. *)
Definition ready (s : rst) (d : nat) : Prop :=
  ~ In d (rs_hist s) /\ (forall e, In e (rs_hist s) -> ~ upstream P d e) /\ triggered P beh init (rs_hist s) d.
Lemma fold_none r : forall l s c n s' n', fold_left (down_step P r) l (s, c, n) = (s', None, n') -> wf s -> (c <> None -> n <> 0) ->
  (forall d, In d l \/ c = Some d -> ready s d) ->
  wf s' /\ rs_hist s' = rs_hist s /\ forall x, In x (rs_q s') <-> In x (rs_q s) \/ In x l \/ c = Some x.
Proof.
  induction l as [|d l IH]; intros s c n s' n' H W Hn R; cbn [fold_left] in H.
  - injection H as <- -> <-. split; [exact W|]. split; [reflexivity|]. intros x. cbn. intuition discriminate.
  - unfold down_step at 2 in H. destruct (opt_is c d) eqn:Ec.
    + destruct c as [c|]; [|discriminate]. cbn in Ec. apply Nat.eqb_eq in Ec. subst d. destruct (IH _ _ _ _ _ H W Hn) as (A & B & C).
      * intros d [K|K]; apply R; [left; right; exact K|right; exact K].
      * split; [exact A|]. split; [exact B|]. intros x. rewrite C. cbn. intuition congruence.
    + destruct ((S n =? 1) && opt_is (rp_last P d) r) eqn:En.
      * destruct c as [c|].
        -- exfalso. apply andb_true_iff in En. destruct En as (En & _). apply Nat.eqb_eq in En. apply Hn; [discriminate|lia].
        -- destruct (IH _ _ _ _ _ H W) as (A & B & C); [intros _; discriminate| |].
           ++ intros d0 [K|K]; apply R; [left; right; exact K|injection K as <-; left; left; reflexivity].
           ++ split; [exact A|]. split; [exact B|]. intros x. rewrite C. cbn. intuition congruence.
      * assert (K : exists s1, (match c with Some c => trigger s c | None => s end) = s1 /\ wf s1 /\ rs_hist s1 = rs_hist s /\ forall x, In x (rs_q s1) <-> In x (rs_q s) \/ c = Some x).
        { destruct c as [c|]; [|exists s; repeat (split; [first [reflexivity|assumption]|]); intros x; intuition discriminate].
          destruct (R c (or_intror eq_refl)) as (R1 & R2 & R3). destruct (wf_trigger s c W R1 R2 R3) as (A & B & C). eexists. split; [reflexivity|]. split; [exact A|]. split; [exact B|].
          intros x. rewrite C. intuition congruence. }
        destruct K as (s1 & E1 & W1 & Eh & Eq). rewrite E1 in H.
        destruct (R d (or_introl (or_introl eq_refl))) as (R1 & R2 & R3). rewrite <- Eh in R1, R2, R3. destruct (wf_trigger s1 d W1 R1 R2 R3) as (A & B & C).
        destruct (IH _ _ _ _ _ H A) as (A2 & B2 & C2).
        -- congruence.
        -- intros d0 [K|K]; [|discriminate]. unfold ready. rewrite B, Eh. apply R. left; right; exact K.
        -- split; [exact A2|]. split; [congruence|]. intros x. rewrite C2, C, Eq. cbn. intuition (try congruence; try discriminate).
Qed.

Lemma snoc_split (h a b : list nat) d x : h ++ [d] = a ++ x :: b -> (b = [] /\ a = h /\ x = d) \/ exists b', b = b' ++ [d] /\ h = a ++ x :: b'.
Proof.
  intros H. destruct b as [|y b] using rev_ind.
  - apply app_inj_tail in H. destruct H as (-> & ->). auto.
  - right. change (h ++ [d] = a ++ (x :: b) ++ [y]) in H. rewrite app_assoc in H. apply app_inj_tail in H. destruct H as (-> & ->). eauto.
Qed.
Lemma trig_snoc h r d : triggered P beh init (h ++ [r]) d <-> triggered P beh init h d \/ In d (produced P beh h r).
Proof.
  split.
  - intros [H|(a & x & b & E & H)]; [left; left; exact H|]. apply snoc_split in E. destruct E as [(-> & -> & ->)|(b' & -> & ->)]; [right; exact H|]. left. right. eauto.
  - intros [H|H]; [apply trig_ext, H|]. right. exists h, r, []. auto.
Qed.

Definition complete (s : rst) : Prop := forall d, triggered P beh init (rs_hist s) d -> In d (rs_q s) \/ In d (rs_hist s).
Lemma wf_invoke s d : wf s -> ~ In d (rs_hist s) -> ~ In d (rs_q s) -> triggered P beh init (rs_hist s) d -> (forall x, In x (rs_q s) -> ~ upstream P x d) ->
  (forall e, In e (rs_hist s) -> ~ upstream P d e) -> wf (mkRst (rs_q s) (rs_st s) (rs_hist s ++ [d])).
Proof.
  intros [A B C D E F G O] Hn Hq Ht Hu Hd. constructor; cbn [rs_q rs_st rs_hist]; try assumption.
  - intros x Hx. apply in_or_app. left. apply C, Hx.
  - apply (Permutation_NoDup (l := d :: rs_hist s)); [apply Permutation_cons_append|]. constructor; assumption.
  - intros x e Hx He. apply in_app_or in He. destruct He as [He|[<-|[]]]; [apply E; assumption|]. split; [intros ->; contradiction|apply Hu, Hx].
  - intros x Hx. apply trig_ext, F, Hx.
  - intros a x b H. apply snoc_split in H. destruct H as [(-> & -> & ->)|(b' & -> & H)]; [exact Ht|]. eapply G, H.
  - intros a x b y H Hy. apply snoc_split in H. destruct H as [(-> & -> & ->)|(b' & -> & H)]; [destruct Hy|]. apply in_app_or in Hy. destruct Hy as [Hy|[<-|[]]]; [eapply O; eassumption|].
    apply Hd. rewrite H. apply in_or_app. right; left; reflexivity.
Qed.

Lemma outs_ok : forall fuel s pre r s', outs fuel P beh s pre r = Some s' -> wf s -> rs_hist s = pre ++ [r] ->
  (forall e, In e (rs_hist s) -> ~ upstream P r e) -> (forall x, In x (rs_q s) -> triggered P beh init pre x) ->
  (forall d, triggered P beh init pre d -> In d (rs_q s) \/ In d (rs_hist s)) ->
  wf s' /\ complete s' /\ exists ext, rs_hist s' = rs_hist s ++ ext.
Proof.
  induction fuel as [|f IH]; intros s pre r s' H W Hh Hu Hq Hc; cbn [outs] in H; [discriminate|].
  destruct (fold_left (down_step P r) (produced P beh pre r) (s, None, 0)) as [[s1 cand] n] eqn:Ef.
  assert (Hready : forall d, In d (produced P beh pre r) -> ready s d).
  { intros d Hd. pose proof (produced_edge _ _ _ Hd) as He. split; [intros K; apply (Hu d K), t_step, He|]. split; [intros e K L; apply (Hu e K); eapply up_edge; eassumption|].
    rewrite Hh. apply trig_snoc. right; exact Hd. }
  destruct cand as [d|].
  - pose proof (fold_cand r _ s _ _ _ _ _ _ Ef) as (-> & Hl & Hall & Hin); [reflexivity|congruence|discriminate|]. destruct Hin as [Hin|(_ & _ & Hin)]; [discriminate|].
    destruct (Hready d Hin) as (R1 & R2 & R3). destruct (Hlast d r Hl) as (Hi & Ho).
    assert (Hnq : ~ In d (rs_q s)).
    { intros K. apply Hq in K. destruct K as [K|(a & r' & b & -> & K)]; [contradiction|]. apply produced_edge in K. apply Ho in K. subst r'.
      pose proof (wf_hist _ W) as N. rewrite Hh in N. rewrite <- app_assoc in N. cbn in N. apply NoDup_remove_2 in N. apply N. apply in_or_app. right. apply in_or_app. right. left; reflexivity. }
    assert (Hux : forall x, In x (rs_q s) -> ~ upstream P x d).
    { intros x Hx K. apply up_last in K. destruct K as (u & Ku & K). apply Ho in Ku. subst u. assert (Hr : In r (rs_hist s)) by (rewrite Hh; apply in_or_app; right; left; reflexivity).
      destruct (wf_sep _ W x r Hx Hr) as (K1 & K2). destruct K; contradiction. }
    destruct (IH _ _ _ _ H) as (A & B & ext & C); cbn [rs_hist rs_q] in *.
    + apply wf_invoke; assumption.
    + reflexivity.
    + intros e He. apply in_app_or in He. destruct He as [He|[<-|[]]]; [apply R2, He|apply up_irrefl].
    + apply (wf_trig _ W).
    + intros x Hx. rewrite Hh in Hx. apply trig_snoc in Hx. destruct Hx as [Hx|Hx]; [destruct (Hc x Hx); [auto|right; apply in_or_app; auto]|]. apply Hall in Hx. subst x. right. apply in_or_app. right; left; reflexivity.
    + split; [exact A|]. split; [exact B|]. exists ([d] ++ ext). rewrite C, <- app_assoc. reflexivity.
  - injection H as <-. destruct (fold_none r _ _ _ _ _ _ Ef W) as (A & B & C); [congruence| |].
    + intros d [K|K]; [apply Hready, K|discriminate].
    + split; [exact A|]. split; [|exists []; rewrite app_nil_r; exact B]. intros d Hd. rewrite B, Hh in Hd. apply trig_snoc in Hd. rewrite C, B.
      destruct Hd as [Hd|Hd]; [destruct (Hc d Hd); auto|auto].
Qed.

(** State when [r], of least index, is popped and invoked. *)
Lemma popped s r q : wf s -> complete s -> pick (rs_q s) = Some (r, q) ->
  let s0 := mkRst q (upd (rs_st s) r running) (rs_hist s ++ [r]) in
  wf s0 /\ (forall e, In e (rs_hist s0) -> ~ upstream P r e) /\ (forall x, In x q -> triggered P beh init (rs_hist s) x) /\
  (forall d, triggered P beh init (rs_hist s) d -> In d q \/ In d (rs_hist s0)) /\ In r (rs_q s) /\ (forall x, In x (rs_q s) -> (rp_index P r <= rp_index P x)%Z) /\
  (forall x, In x (rs_q s) <-> x = r \/ In x q).
Proof.
  intros W Hc Hp. destruct Hpick as (Hp0 & Hp1). destruct (rs_q s) as [|y l] eqn:Eq; [congruence|]. rewrite <- Eq in *. destruct (Hp1 (rs_q s)) as (r' & q' & E & Hperm & Hmin); [congruence|].
  rewrite Hp in E. injection E as <- <-. pose proof W as [A B C D E F G O].
  assert (Hin : forall x, In x (rs_q s) <-> x = r \/ In x q).
  { intros x. split; intros K; [apply (Permutation_in _ Hperm) in K; destruct K; auto|apply (Permutation_in _ (Permutation_sym Hperm)); destruct K; [left; auto|right; auto]]. }
  assert (N : NoDup (r :: q)) by (apply (Permutation_NoDup Hperm), A). apply NoDup_cons_iff in N. destruct N as (N1 & N2).
  assert (Hr : In r (rs_q s)) by (apply Hin; left; reflexivity).
  assert (Hnr : ~ In r (rs_hist s)) by (intros K; destruct (E r r Hr K); congruence).
  cbv zeta. cbn [rs_hist rs_q]. split; [|split; [|split; [|split; [|split; [exact Hr|split; [exact Hmin|exact Hin]]]]]].
  - constructor; cbn [rs_q rs_st rs_hist]; try assumption.
    + intros x. destruct (Nat.eq_dec x r) as [->|Nx]; [rewrite upd_eq; split; [discriminate|contradiction]|]. rewrite upd_neq by congruence. rewrite B, Hin. intuition congruence.
    + intros x. destruct (Nat.eq_dec x r) as [->|Nx]; [intros _; apply in_or_app; right; left; reflexivity|]. rewrite upd_neq by congruence. intros K. apply in_or_app. left. apply C, K.
    + apply (Permutation_NoDup (l := r :: rs_hist s)); [apply Permutation_cons_append|]. constructor; assumption.
    + intros x e Hx He. assert (Hx' : In x (rs_q s)) by (apply Hin; auto). apply in_app_or in He. destruct He as [He|[<-|[]]]; [apply E; assumption|]. split; [intros ->; contradiction|].
      intros K. apply up_index in K. specialize (Hmin x Hx'). lia.
    + intros x Hx. apply trig_ext, F, Hin. auto.
    + intros a x b H. apply snoc_split in H. destruct H as [(-> & -> & ->)|(b' & -> & H)]; [apply F, Hr|]. eapply G, H.
    + intros a x b z H Hz. apply snoc_split in H. destruct H as [(-> & -> & ->)|(b' & -> & H)]; [destruct Hz|]. apply in_app_or in Hz. destruct Hz as [Hz|[<-|[]]]; [eapply O; eassumption|].
      apply (E r x Hr). rewrite H. apply in_or_app. right; left; reflexivity.
  - intros e He. apply in_app_or in He. destruct He as [He|[<-|[]]]; [apply (E r e Hr He)|apply up_irrefl].
  - intros x Hx. apply F, Hin. auto.
  - intros d Hd. destruct (Hc d Hd) as [K|K]; [apply Hin in K; destruct K as [->|K]; [right; apply in_or_app; right; left; reflexivity|left; exact K]|right; apply in_or_app; auto].
Qed.
Lemma settle_running s r : wf s -> In r (rs_hist s) -> wf (mkRst (rs_q s) (upd (rs_st s) r inactive) (rs_hist s)).
Proof.
  intros [A B C D E F G O] Hr. constructor; cbn [rs_q rs_st rs_hist]; try assumption.
  - intros x. destruct (Nat.eq_dec x r) as [->|Nx]; [rewrite upd_eq; split; [discriminate|intros K; destruct (E r r K Hr); congruence]|]. rewrite upd_neq by congruence. apply B.
  - intros x. destruct (Nat.eq_dec x r) as [->|Nx]; [rewrite upd_eq; discriminate|]. rewrite upd_neq by congruence. apply C.
Qed.

Lemma drain_ok : forall fuel s s', drain fuel P pick beh s = Some s' -> wf s -> complete s -> wf s' /\ complete s' /\ rs_q s' = [] /\ exists ext, rs_hist s' = rs_hist s ++ ext.
Proof.
  induction fuel as [|f IH]; intros s s' H W Hc; cbn [drain] in H; [discriminate|]. destruct (pick (rs_q s)) as [[r q]|] eqn:Ep.
  - destruct (popped s r q W Hc Ep) as (A & B & C & D & _). destruct (outs f P beh _ (rs_hist s) r) as [s1|] eqn:Eo; [|discriminate].
    destruct (outs_ok _ _ _ _ _ Eo A eq_refl B C D) as (W1 & C1 & ext & Eh). cbn [rs_hist] in Eh.
    apply IH in H.
    + destruct H as (H1 & H2 & H3 & ext2 & H4). split; [exact H1|]. split; [exact H2|]. split; [exact H3|]. cbn [rs_hist] in H4. rewrite H4, Eh, <- !app_assoc. eauto.
    + apply settle_running; [exact W1|]. rewrite Eh, <- app_assoc. apply in_or_app. right; left; reflexivity.
    + exact C1.
  - injection H as <-. split; [exact W|]. split; [exact Hc|]. split; [|exists []; rewrite app_nil_r; reflexivity]. destruct (rs_q s) as [|x l] eqn:Eq; [reflexivity|]. destruct Hpick as (_ & Hp). destruct (Hp (x :: l)) as (r & q' & E & _); congruence.
Qed.

(** Start. *)
Lemma start_ok : wf (at_start init) /\ complete (at_start init) /\ rs_hist (at_start init) = [] /\ forall x, In x (rs_q (at_start init)) <-> In x init.
Proof.
  assert (K : forall l s, incl l init -> wf s -> rs_hist s = [] -> let s' := fold_left trigger l s in wf s' /\ rs_hist s' = [] /\ forall x, In x (rs_q s') <-> In x (rs_q s) \/ In x l).
  { induction l as [|d l IH]; intros s Hi W Hh; [cbn; split; [exact W|]; split; [exact Hh|]; intros x; tauto|]. cbn [fold_left].
    destruct (wf_trigger s d W) as (A & B & C); [rewrite Hh; intros []|rewrite Hh; intros e []|left; apply Hi; left; reflexivity|].
    destruct (IH (trigger s d)) as (A2 & B2 & C2); [intros x Hx; apply Hi; right; exact Hx|exact A|congruence|]. split; [exact A2|]. split; [exact B2|]. intros x. rewrite C2, C. cbn. intuition congruence. }
  destruct (K init (mkRst [] (fun _ => inactive) [])) as (A & B & C); [apply incl_refl| |reflexivity|].
  - constructor; cbn; [constructor|intros x; split; [discriminate|intros []]|discriminate|constructor|intros x e []|intros x []| |]; [intros a d b E|intros a x b y E]; destruct a; discriminate.
  - unfold at_start. cbv zeta in *. assert (D : forall x, In x (rs_q (fold_left trigger init (mkRst [] (fun _ => inactive) []))) <-> In x init) by (intros x; rewrite C; cbn; tauto).
    split; [exact A|]. split; [|split; [exact B|exact D]]. intros d Hd. rewrite B in Hd. destruct Hd as [Hd|(a & r & b & E & _)]; [left; apply D, Hd|destruct a; discriminate].
Qed.

(** *** Without the optimisation: order of indices *)
Definition lv (s : rst) : Prop :=
  (forall a x b y, rs_hist s = a ++ x :: b -> In y b -> (rp_index P x <= rp_index P y)%Z) /\
  (forall x e, In x (rs_q s) -> In e (rs_hist s) -> (rp_index P e <= rp_index P x)%Z).
Lemma fold_no_cand (Hno : forall d, rp_last P d = None) r : forall l s n, exists s' n', fold_left (down_step P r) l (s, None, n) = (s', None, n') /\ rs_hist s' = rs_hist s /\ forall x, In x (rs_q s') -> In x (rs_q s) \/ In x l.
Proof.
  induction l as [|d l IH]; intros s n; cbn [fold_left]; [eexists _, _; split; [reflexivity|]; split; [reflexivity|auto]|]. unfold down_step at 2. cbn [opt_is]. rewrite Hno. cbn [opt_is]. rewrite andb_false_r.
  destruct (IH (trigger s d) (S n)) as (s' & n' & E & A & B). eexists _, _. split; [exact E|]. destruct (trigger_spec s d) as (T1 & T2). split; [congruence|]. intros x Hx. destruct (B x Hx) as [K|K]; [apply T2 in K; destruct K as [K|(-> & _)]|]; cbn; auto.
Qed.
Lemma drain_lv (Hno : forall d, rp_last P d = None) : forall fuel s s', drain fuel P pick beh s = Some s' -> wf s -> complete s -> lv s -> lv s'.
Proof.
  induction fuel as [|f IH]; intros s s' H W Hc L; cbn [drain] in H; [discriminate|]. destruct (pick (rs_q s)) as [[r q]|] eqn:Ep; [|injection H as <-; exact L].
  destruct (popped s r q W Hc Ep) as (A & B & C & D & Hr & Hmin & Hin). destruct (outs f P beh _ (rs_hist s) r) as [s1|] eqn:Eo; [|discriminate].
  destruct (outs_ok _ _ _ _ _ Eo A eq_refl B C D) as (W1 & C1 & ext & Eh). cbn [rs_hist] in Eh.
  apply IH in H; [exact H| |exact C1|].
  - apply settle_running; [exact W1|]. rewrite Eh, <- app_assoc. apply in_or_app. right; left; reflexivity.
  - destruct f as [|f]; [discriminate|]. cbn [outs] in Eo. edestruct (fold_no_cand Hno r (produced P beh (rs_hist s) r) (mkRst q (upd (rs_st s) r running) (rs_hist s ++ [r])) 0) as (s2 & n & E & E1 & E2). rewrite E in Eo. injection Eo as <-.
    cbn [rs_hist rs_q] in *. destruct L as (L1 & L2). split; cbn [rs_hist rs_q]; rewrite E1.
    + intros a x b y Hs Hy. apply snoc_split in Hs. destruct Hs as [(-> & _)|(b' & -> & Hs)]; [destruct Hy|]. apply in_app_or in Hy. destruct Hy as [Hy|[<-|[]]]; [eapply L1; eassumption|].
      apply L2; [exact Hr|]. rewrite Hs. apply in_or_app. right; left; reflexivity.
    + intros x e Hx He. assert (Hr2 : (rp_index P e <= rp_index P r)%Z) by (apply in_app_or in He; destruct He as [He|[<-|[]]]; [apply L2; assumption|lia]).
      assert (Hx2 : (rp_index P r <= rp_index P x)%Z) by (destruct (E2 x Hx) as [K|K]; [apply Hmin, Hin; auto|apply produced_edge, Hlev in K; lia]). lia.
Qed.
(** *** Termination *)
Variable N : nat.
Hypothesis Hinit : forall d, In d init -> d < N.
Hypothesis Hdown : forall r d, edge P r d -> d < N.
Lemma trig_bound h d : triggered P beh init h d -> d < N.
Proof. intros [H|(a & r & b & _ & H)]; [apply Hinit, H|]. apply produced_edge in H. eapply Hdown, H. Qed.
Lemma hist_bound s : wf s -> length (rs_hist s) <= N.
Proof.
  intros W. rewrite <- (seq_length N 0). apply NoDup_incl_length; [apply (wf_hist _ W)|]. intros x Hx. apply in_split in Hx. destruct Hx as (a & b & E). apply in_seq.
  pose proof (trig_bound _ _ (wf_caus _ W a x b E)). lia.
Qed.
Lemma outs_some : forall fuel s pre r, wf s -> rs_hist s = pre ++ [r] ->
  (forall e, In e (rs_hist s) -> ~ upstream P r e) -> (forall x, In x (rs_q s) -> triggered P beh init pre x) -> N - length (rs_hist s) < fuel -> outs fuel P beh s pre r <> None.
Proof.
  induction fuel as [|f IH]; intros s pre r W Hh Hu Hq Hf; [lia|]. cbn [outs]. 
  destruct (fold_left (down_step P r) (produced P beh pre r) (s, None, 0)) as [[s1 cand] n] eqn:Ef. destruct cand as [d|]; [|discriminate].
  pose proof (fold_cand r _ s _ _ _ _ _ _ Ef) as (-> & Hl & Hall & Hin); [reflexivity|congruence|discriminate|]. destruct Hin as [Hin|(_ & _ & Hin)]; [discriminate|].
  pose proof (produced_edge _ _ _ Hin) as He. destruct (Hlast d r Hl) as (Hi & Ho).
  assert (Hnh : ~ In d (rs_hist s)) by (intros K; apply (Hu d K), t_step, He).
  assert (Hnq : ~ In d (rs_q s)).
  { intros K. apply Hq in K. destruct K as [K|(a & r' & b & -> & K)]; [contradiction|]. apply produced_edge in K. apply Ho in K. subst r'.
    pose proof (wf_hist _ W) as M. rewrite Hh in M. rewrite <- app_assoc in M. cbn in M. apply NoDup_remove_2 in M. apply M. apply in_or_app. right. apply in_or_app. right. left; reflexivity. }
  assert (Hux : forall x, In x (rs_q s) -> ~ upstream P x d).
  { intros x Hx K. apply up_last in K. destruct K as (u & Ku & K). apply Ho in Ku. subst u. assert (Hr : In r (rs_hist s)) by (rewrite Hh; apply in_or_app; right; left; reflexivity).
    destruct (wf_sep _ W x r Hx Hr) as (K1 & K2). destruct K; contradiction. }
  assert (Wd : wf (mkRst (rs_q s) (rs_st s) (rs_hist s ++ [d]))).
  { apply wf_invoke; try assumption; [rewrite Hh; apply trig_snoc; right; exact Hin|]. intros e K L; apply (Hu e K); eapply up_edge; eassumption. }
  apply IH; cbn [rs_hist rs_q]; [exact Wd|reflexivity| |apply (wf_trig _ W)|].
  - intros e K. apply in_app_or in K. destruct K as [K|[<-|[]]]; [intros L; apply (Hu e K); eapply up_edge; eassumption|apply up_irrefl].
  - pose proof (hist_bound _ Wd) as L. cbn [rs_hist] in L. rewrite app_length in *. cbn [length] in *. lia.
Qed.
Lemma drain_some : forall fuel s, wf s -> complete s -> N - length (rs_hist s) < fuel -> drain fuel P pick beh s <> None.
Proof.
  induction fuel as [|f IH]; intros s W Hc Hf; [lia|]. cbn [drain]. destruct (pick (rs_q s)) as [[r q]|] eqn:Ep; [|discriminate].
  destruct (popped s r q W Hc Ep) as (A & B & C & D & _). pose proof (hist_bound _ A) as L. cbn [rs_hist] in L. rewrite app_length in L. cbn [length] in L.
  destruct (outs f P beh _ (rs_hist s) r) as [s1|] eqn:Eo.
  - destruct (outs_ok _ _ _ _ _ Eo A eq_refl B C D) as (W1 & C1 & ext & Eh). cbn [rs_hist] in Eh. apply IH.
    + apply settle_running; [exact W1|]. rewrite Eh, <- app_assoc. apply in_or_app. right; left; reflexivity.
    + exact C1.
    + cbn [rs_hist]. rewrite Eh, !app_length. cbn [length]. lia.
  - exfalso. revert Eo. apply outs_some; try assumption; [reflexivity|]. cbn [rs_hist]. rewrite app_length. cbn [length]. lia.
Qed.

End S.
