(** Proofs about the coordinator: generic preservation, order of grants, in-transit messages. *)
From Verif Require Import Base Tag TagSpec TagProofs Pqueue PqueueProofs RtiDelays Rti RtiSpec.
Open Scope Z_scope.

Lemma fold_left_preserves {A B} (P : A -> Prop) (f : A -> B -> A) l : (forall a b, In b l -> P a -> P (f a b)) -> forall a, P a -> P (fold_left f l a).
Proof.
  induction l as [|b l IH]; intros H a Ha; [exact Ha|]. cbn [fold_left]. apply IH; [intros a' b' Hb; apply H; now right|]. apply H; [now left|exact Ha].
Qed.

Lemma cmp_eq0 a b : (tag_compare a b =? 0) = true <-> a = b.
Proof. rewrite Z.eqb_eq. apply tag_compare_eq. Qed.
Lemma cmp_lt0 a b : (tag_compare a b <? 0) = true <-> tag_lt a b.
Proof. rewrite Z.ltb_lt, <- tag_compare_lt. destruct (tag_compare_range a b) as [K|[K|K]]; lia. Qed.
Lemma cmp_gt0 a b : (0 <? tag_compare a b) = true <-> tag_lt b a.
Proof. rewrite Z.ltb_lt, <- tag_compare_gt. destruct (tag_compare_range a b) as [K|[K|K]]; lia. Qed.
Lemma cmp_ge0 a b : (0 <=? tag_compare a b) = true <-> tag_le b a.
Proof.
  rewrite Z.leb_le. split.
  - intros H. apply tag_not_lt. intros K. apply tag_compare_lt in K. lia.
  - intros H. destruct (Z.lt_ge_cases (tag_compare a b) 0) as [K|K]; [|exact K]. exfalso. apply Z.ltb_lt in K. apply cmp_lt0 in K. apply (tag_lt_irrefl a). eapply tag_lt_le_trans; eassumption.
Qed.
Lemma cmp_le0 a b : (tag_compare a b <=? 0) = true <-> tag_le a b.
Proof.
  rewrite Z.leb_le. split.
  - intros H. apply tag_not_lt. intros K. apply tag_compare_gt in K. lia.
  - intros H. destruct (Z.lt_ge_cases 0 (tag_compare a b)) as [K|K]; [|exact K]. exfalso. apply Z.ltb_lt in K. apply cmp_gt0 in K. apply (tag_lt_irrefl b). eapply tag_lt_le_trans; eassumption.
Qed.
Lemma cmp_lt0_false a b : (tag_compare a b <? 0) = false <-> tag_le b a.
Proof. rewrite <- cmp_ge0, Z.ltb_ge, Z.leb_le. reflexivity. Qed.
Lemma cmp_le0_false a b : (tag_compare a b <=? 0) = false <-> tag_lt b a.
Proof. rewrite <- cmp_gt0, Z.leb_gt, Z.ltb_lt. reflexivity. Qed.
Lemma cmp_gt0_false a b : (0 <? tag_compare a b) = false <-> tag_le a b.
Proof. rewrite <- cmp_le0, Z.ltb_ge, Z.leb_le. reflexivity. Qed.

Lemma on_same s i f : on s i f i = f (s i). Proof. apply upd_eq. Qed.
Lemma on_other s i f j : i <> j -> on s i f j = s j. Proof. intros H. apply upd_neq. congruence. Qed.

Section Closed.
Variable tp : topo.
Variable start : Z.
Variable P : rti -> Prop.
Hypothesis Pdelays : forall s e, P s -> r_delays (s e) = None ->
  P (on s e (set_delays (Some (match compute_delays tp (fun i => r_connected (s i)) e with Delays table zdc _ => (table, zdc) | _ => ([], false) end)))).
Hypothesis Pstart : forall s k, P s -> r_next (s k) = NEVER_TAG -> P (on s k (set_next (mkTag start 0))).

Lemma node_delays_P s e : P s -> P (fst (node_delays tp s e)).
Proof. intros H. unfold node_delays. destruct (r_delays (s e)) eqn:E; [exact H|]. apply Pdelays; assumption. Qed.
Lemma assume_start_P s k : P s -> P (assume_start start s k).
Proof. intros H. unfold assume_start. destruct (tag_compare (r_next (s k)) NEVER_TAG =? 0) eqn:E; [|exact H]. apply Pstart; [exact H|apply cmp_eq0, E]. Qed.
Lemma eimt_loop_P l : forall s t, P s -> P (fst (eimt_loop start l s t)).
Proof. induction l as [|(k & d) l IH]; intros s t H; [exact H|]. cbn [eimt_loop]. apply IH, assume_start_P, H. Qed.
Lemma eimt_P s e : P s -> P (fst (eimt tp start s e)).
Proof. intros H. unfold eimt. pose proof (node_delays_P s e H) as K. destruct (node_delays tp s e) as [s' c]. apply eimt_loop_P, K. Qed.
Lemma strict_loop_P l : forall s t, P s -> P (fst (strict_loop tp start l s t)).
Proof.
  induction l as [|(k & d) l IH]; intros s t H; [exact H|]. cbn [strict_loop]. pose proof (node_delays_P s k H) as K. destruct (node_delays tp s k) as [s' c]. cbn [fst] in K.
  destruct (snd c); [apply IH, K|]. pose proof (eimt_P (assume_start start s' k) k (assume_start_P s' k K)) as K2. destruct (eimt tp start (assume_start start s' k) k) as [s2 x]. apply IH, K2.
Qed.
Lemma eimt_strict_P s e : P s -> P (fst (eimt_strict tp start s e)).
Proof. apply strict_loop_P. Qed.
Lemma grant_if_safe_P s e : P s -> P (fst (grant_if_safe tp start s e)).
Proof.
  intros H. unfold grant_if_safe. destruct (_ && _); [exact H|]. pose proof (eimt_P s e H) as K. destruct (eimt tp start s e) as [s1 t1]. cbn [fst] in K.
  pose proof (eimt_strict_P s1 e K) as K2. destruct (eimt_strict tp start s1 e) as [s2 t2]. cbn [fst] in K2. destruct (_ && _ && _ && _); [exact K2|]. destruct (_ =? 0); [|exact K2].
  pose proof (node_delays_P s2 e K2) as K3. destruct (node_delays tp s2 e) as [s3 c]. destruct (_ && _ && _ && _); exact K3.
Qed.

Section Grants.
Variable ok : nat -> bool.
Hypothesis Psafe : forall s e, P s -> P (notify_if_safe tp start ok s e).
Lemma notify_down_P fuel : forall sv e, P (fst sv) -> P (fst (notify_down tp start ok fuel sv e)).
Proof.
  induction fuel as [|fuel IH]; intros sv e H; [exact H|]. cbn [notify_down].
  apply (fold_left_preserves (fun sv : rti * (nat -> bool) => P (fst sv))); [|exact H]. intros [s v] j _ K. cbn [fst snd] in *. destruct (v j); [exact K|]. apply IH. cbn [fst]. apply Psafe, K.
Qed.
Lemma notify_downstream_P s e : P s -> P (notify_downstream tp start ok s e).
Proof. intros H. unfold notify_downstream. apply notify_down_P. exact H. Qed.
Lemma tag_complete_P s e t : P (on s e (set_completed t)) -> P (tag_complete tp start ok s e t).
Proof. intros H. unfold tag_complete. apply fold_left_preserves; [|exact H]. intros a b _ K. apply notify_downstream_P, Psafe, K. Qed.
Lemma update_next_P s e t : P (on s e (set_next t)) -> (tp_up tp e = [] -> P (on (on s e (set_next t)) e (set_granted t))) -> P (update_next tp start ok s e t).
Proof. intros H1 H2. unfold update_next. apply notify_downstream_P. destruct (tp_up tp e) eqn:E; [apply H2; reflexivity|apply Psafe, H1]. Qed.
End Grants.

(** When the primitives preserve [P] without conditions. *)
Section Free.
Variable ok : nat -> bool.
Hypothesis Ptag : forall s e t, P s -> P (notify_tag ok s e t).
Hypothesis Pptag : forall s e t, P s -> r_connected (s e) = true -> tag_lt (r_granted (s e)) t -> tag_lt (r_ptag (s e)) t -> P (on s e (fun n => set_ptag t (add_sent (MPtag t) n))).
Hypothesis Pgone : forall s e, P s -> P (on s e (set_connected false)).
Lemma notify_ptag_P fuel : forall s e t, P s -> P (notify_ptag tp start ok fuel s e t).
Proof.
  induction fuel as [|fuel IH]; intros s e t H; [exact H|]. cbn [notify_ptag]. destruct (_ || _ || _) eqn:C; [exact H|].
  apply orb_false_iff in C. destruct C as (C & C3). apply orb_false_iff in C. destruct C as (C1 & C2). apply negb_false_iff in C1. apply cmp_le0_false in C2, C3.
  destruct (ok e); [|apply Pgone, H]. apply fold_left_preserves; [|apply Pptag; assumption]. intros a (k & d) _ K. cbn [fst]. destruct (r_connected (a k)); [|exact K].
  pose proof (eimt_P a k K) as K1. destruct (eimt tp start a k) as [s1 x1]. cbn [fst] in K1. pose proof (eimt_strict_P s1 k K1) as K2. destruct (eimt_strict tp start s1 k) as [s2 x2]. cbn [fst] in K2.
  destruct (0 <? _); [apply Ptag, K2|]. destruct (_ && _); [apply IH, K2|exact K2].
Qed.
Lemma notify_if_safe_P s e : P s -> P (notify_if_safe tp start ok s e).
Proof.
  intros H. unfold notify_if_safe. pose proof (grant_if_safe_P s e H) as K. destruct (grant_if_safe tp start s e) as [s1 g]. cbn [fst] in K. destruct g as [(t & p)|]; [|exact K].
  destruct (_ =? 0); [exact K|]. destruct p; [apply notify_ptag_P, K|apply Ptag, K].
Qed.
End Free.
End Closed.

(** ** The order of grants. *)
Lemma go_nil strict : grants_ordered strict [].
Proof. intros l1 m l2 E. destruct l1; discriminate E. Qed.
Lemma go_snoc strict l m : grants_ordered strict l -> (forall m', In m' l -> later_ok strict m' m) -> grants_ordered strict (l ++ [m]).
Proof.
  intros H Hm l1 x l2 E m' Hin. destruct l2 as [|y l2] using rev_ind.
  - apply app_inj_tail in E. destruct E as (-> & ->). apply Hm, Hin.
  - rewrite app_comm_cons, app_assoc in E. apply app_inj_tail in E. destruct E as (-> & _). eapply H; [reflexivity|exact Hin].
Qed.
Definition strict_node (tp : topo) (e : nat) : bool := match tp_up tp e with [] => false | _ => true end.
Definition log_inv (strict : bool) (n : rnode) : Prop :=
  grants_ordered strict (r_sent n) /\ (forall t, In (MPtag t) (r_sent n) -> tag_le t (r_ptag n)) /\
  (strict = true -> forall t, In (MTag t) (r_sent n) -> tag_le t (r_granted n)).
Definition order_inv (tp : topo) (s : rti) : Prop := forall e, log_inv (strict_node tp e) (s e).

Lemma order_on tp s e f : order_inv tp s -> (log_inv (strict_node tp e) (s e) -> log_inv (strict_node tp e) (f (s e))) -> order_inv tp (on s e f).
Proof.
  intros H Hf e'. destruct (Nat.eq_dec e e') as [<-|n]; [rewrite on_same; apply Hf, H|rewrite on_other by exact n; apply H].
Qed.
Lemma log_snoc strict n m n' : log_inv strict n -> r_sent n' = r_sent n ++ [m] -> (forall m', In m' (r_sent n) -> later_ok strict m' m) ->
  (match m with MTag t => r_granted n' = t /\ r_ptag n' = r_ptag n /\ (strict = true -> tag_le (r_granted n) t)
   | MPtag t => r_ptag n' = t /\ r_granted n' = r_granted n /\ tag_le (r_ptag n) t | _ => r_granted n' = r_granted n /\ r_ptag n' = r_ptag n end) -> log_inv strict n'.
Proof.
  intros (H1 & H2 & H3) E Hl Hm. split; [rewrite E; apply go_snoc; assumption|]. split.
  - intros t Hin. rewrite E in Hin. apply in_app_or in Hin. destruct m; destruct Hin as [Hin|[Hin|[]]]; try discriminate Hin.
    + destruct Hm as (_ & -> & _). apply H2, Hin.
    + destruct Hm as (-> & _ & Hm). eapply tag_le_trans; [apply H2, Hin|exact Hm].
    + injection Hin as ->. destruct Hm as (-> & _). apply tag_le_refl.
    + destruct Hm as (_ & ->). apply H2, Hin.
    + destruct Hm as (_ & ->). apply H2, Hin.
  - intros Hs t Hin. rewrite E in Hin. apply in_app_or in Hin. destruct m; destruct Hin as [Hin|[Hin|[]]]; try discriminate Hin.
    + destruct Hm as (-> & _ & Hm). eapply tag_le_trans; [apply H3; assumption|apply Hm, Hs].
    + injection Hin as ->. destruct Hm as (-> & _). apply tag_le_refl.
    + destruct Hm as (_ & -> & _). apply H3; assumption.
    + destruct Hm as (-> & _). apply H3; assumption.
    + destruct Hm as (-> & _). apply H3; assumption.
Qed.
Lemma order_tag tp ok s e t : order_inv tp s -> order_inv tp (notify_tag ok s e t).
Proof.
  intros H. unfold notify_tag. destruct (_ || _ || _) eqn:C; [exact H|]. apply orb_false_iff in C. destruct C as (C & C3). apply orb_false_iff in C. destruct C as (C1 & C2).
  apply cmp_le0_false in C2. apply cmp_lt0_false in C3. destruct (ok e); [|apply order_on; [exact H|auto]]. apply order_on; [exact H|]. intros L. eapply log_snoc; [exact L|reflexivity| |].
  - intros m Hm. destruct L as (L1 & L2 & L3). destruct m; cbn; try exact I.
    + intros Hs. eapply tag_le_lt_trans; [apply L3; [exact Hs|exact Hm]|exact C2].
    + eapply tag_le_trans; [apply L2, Hm|exact C3].
  - cbn. split; [reflexivity|]. split; [reflexivity|]. intros _. apply tag_lt_le, C2.
Qed.
Lemma order_ptag tp s e t : order_inv tp s -> r_connected (s e) = true -> tag_lt (r_granted (s e)) t -> tag_lt (r_ptag (s e)) t -> order_inv tp (on s e (fun n => set_ptag t (add_sent (MPtag t) n))).
Proof.
  intros H _ C2 C3. apply order_on; [exact H|]. intros L. eapply log_snoc; [exact L|reflexivity| |].
  - intros m Hm. destruct L as (L1 & L2 & L3). destruct m; cbn; try exact I.
    + intros Hs. eapply tag_le_lt_trans; [apply L3; [exact Hs|exact Hm]|exact C2].
    + eapply tag_le_lt_trans; [apply L2, Hm|exact C3].
  - cbn. split; [reflexivity|]. split; [reflexivity|]. apply tag_lt_le, C3.
Qed.
Lemma order_safe tp start ok s e : order_inv tp s -> order_inv tp (notify_if_safe tp start ok s e).
Proof.
  apply notify_if_safe_P; intros; first [apply order_tag; assumption|apply order_ptag; assumption|apply order_on; [assumption|auto]].
Qed.
Lemma order_update_fed tp start ok s e t : order_inv tp s -> order_inv tp (update_fed_next tp start ok s e t).
Proof.
  intros H. unfold update_fed_next. apply update_next_P; [intros; apply order_safe; assumption|apply order_on; [exact H|auto]|].
  intros E. apply order_on; [apply order_on; [exact H|auto]|]. intros (L1 & L2 & L3). split; [exact L1|]. split; [exact L2|]. unfold strict_node in *. rewrite E in *. discriminate.
Qed.
Lemma order_other tp s e m : order_inv tp s -> (match m with MMsg _ | MAbsent _ => True | _ => False end) -> order_inv tp (on s e (add_sent m)).
Proof.
  intros H Hm. apply order_on; [exact H|]. intros L. eapply log_snoc; [exact L|reflexivity| |]; destruct m; try destruct Hm; [intros m _; destruct m; exact I|intros m _; destruct m; exact I|split; reflexivity|split; reflexivity].
Qed.
Lemma order_step tp start ok s o s' : order_inv tp s -> rti_step tp start ok s o = Some s' -> order_inv tp s'.
Proof.
  intros H E. destruct o as [i t|i t|i t|i j t|i j t|i]; cbn [rti_step] in E.
  - injection E as <-. destruct (r_connected (s i)); [apply order_update_fed, H|exact H].
  - injection E as <-. destruct (r_connected (s i)); [|exact H]. apply tag_complete_P; [intros; apply order_safe; assumption|apply order_on; [exact H|auto]].
  - injection E as <-. apply order_on; [exact H|auto].
  - destruct (r_connected (s i)); [|injection E as <-; exact H]. unfold forward in E. destruct (negb (r_connected (s j))); [injection E as <-; exact H|]. destruct (negb (ok j)); [discriminate|].
    injection E as <-. match goal with |- order_inv tp (if _ then update_fed_next tp start ok ?a j t else _) => assert (K : order_inv tp a) end.
    { destruct (_ <? 0); [apply order_on; [apply order_other; [exact H|exact I]|auto]|apply order_other; [exact H|exact I]]. }
    destruct (tag_compare t _ <? 0); [apply order_update_fed, K|exact K].
  - destruct (_ && _); [|injection E as <-; exact H]. destruct (ok j); [|discriminate]. injection E as <-. apply order_other; [exact H|exact I].
  - injection E as <-. destruct (r_connected (s i)); [|exact H]. apply notify_downstream_P; [intros; apply order_safe; assumption|]. apply order_on; [exact H|auto].
Qed.
Lemma order_run tp start : forall l s s', order_inv tp s -> rti_run tp start s l = Some s' -> order_inv tp s'.
Proof.
  induction l as [|(o & ok) l IH]; intros s s' H E; cbn in E; [injection E as <-; exact H|]. destruct (rti_step tp start ok s o) as [s1|] eqn:E1; [|discriminate]. eapply IH; [eapply order_step; eassumption|exact E].
Qed.
Lemma order_init tp : order_inv tp init_rti.
Proof. intros e. split; [apply go_nil|]. split; [intros t []|intros _ t []]. Qed.

(** ** A federate that has left stays out and is sent nothing. *)
Definition left_as (e : nat) (log : list rmsg) (s : rti) : Prop := r_connected (s e) = false /\ r_sent (s e) = log.
Lemma left_on e log s i f : left_as e log s -> (r_connected (s i) = false -> r_connected (f (s i)) = false /\ r_sent (f (s i)) = r_sent (s i)) -> left_as e log (on s i f).
Proof.
  intros (H1 & H2) Hf. unfold left_as. destruct (Nat.eq_dec i e) as [->|n]; [rewrite on_same; destruct (Hf H1) as (K1 & K2); split; congruence|rewrite on_other by exact n; auto].
Qed.
Lemma left_tag e log ok s i t : left_as e log s -> left_as e log (notify_tag ok s i t).
Proof.
  intros H. unfold notify_tag. destruct (_ || _ || _) eqn:C; [exact H|]. apply orb_false_iff in C. destruct C as (C & C3). apply orb_false_iff in C. destruct C as (C1 & C2). apply negb_false_iff in C1.
  destruct (ok i); apply left_on; try exact H; intros K; congruence || auto.
Qed.
Lemma left_safe e log tp start ok s i : left_as e log s -> left_as e log (notify_if_safe tp start ok s i).
Proof.
  apply notify_if_safe_P; intros; first [apply left_tag; assumption|apply left_on; [assumption|auto; congruence]].
Qed.
Lemma left_update e log tp start ok s i t : left_as e log s -> left_as e log (update_fed_next tp start ok s i t).
Proof.
  intros H. unfold update_fed_next. apply update_next_P; [intros; apply left_safe; assumption|apply left_on; [exact H|auto]|]. intros _. apply left_on; [apply left_on; [exact H|auto]|auto].
Qed.
Lemma left_step e log tp start ok s o s' : left_as e log s -> rti_step tp start ok s o = Some s' -> left_as e log s'.
Proof.
  intros H E. destruct o as [i t|i t|i t|i j t|i j t|i]; cbn [rti_step] in E.
  - injection E as <-. destruct (r_connected (s i)); [apply left_update, H|exact H].
  - injection E as <-. destruct (r_connected (s i)); [|exact H]. apply tag_complete_P; [intros; apply left_safe; assumption|apply left_on; [exact H|auto]].
  - injection E as <-. apply left_on; [exact H|auto].
  - destruct (r_connected (s i)); [|injection E as <-; exact H]. unfold forward in E. destruct (r_connected (s j)) eqn:Cj; cbn [negb] in E; [|injection E as <-; exact H]. destruct (negb (ok j)); [discriminate|].
    injection E as <-. assert (Ne : j <> e) by (intros ->; destruct H; congruence).
    match goal with |- left_as e log (if _ then update_fed_next tp start ok ?a j t else _) => assert (K : left_as e log a) end.
    { assert (K : left_as e log (on s j (add_sent (MMsg t)))) by (unfold left_as; rewrite on_other by exact Ne; exact H). destruct (_ <? 0); [|exact K]. apply left_on; [exact K|auto]. }
    destruct (tag_compare t _ <? 0); [apply left_update, K|exact K].
  - destruct (r_connected (s i)); [|injection E as <-; exact H]. destruct (r_connected (s j)) eqn:Cj; cbn [andb] in E; [|injection E as <-; exact H]. destruct (ok j); [|discriminate]. injection E as <-.
    assert (Ne : j <> e) by (intros ->; destruct H; congruence). unfold left_as. rewrite on_other by exact Ne. exact H.
  - injection E as <-. destruct (r_connected (s i)); [|exact H]. apply notify_downstream_P; [intros; apply left_safe; assumption|]. apply left_on; [exact H|auto].
Qed.
Lemma left_run e log tp start : forall l s s', left_as e log s -> rti_run tp start s l = Some s' -> left_as e log s'.
Proof.
  induction l as [|(o & ok) l IH]; intros s s' H E; cbn in E; [injection E as <-; exact H|]. destruct (rti_step tp start ok s o) as [s1|] eqn:E1; [|discriminate]. eapply IH; [eapply left_step; eassumption|exact E].
Qed.

(** ** In-transit messages. *)
Definition held (j : nat) (t : tag) (s : rti) : Prop := In t (r_transit (s j)) /\ (r_connected (s j) = true -> tag_le (r_next (s j)) t).
Lemma min_tag_le a b : tag_le (min_tag a b) a /\ tag_le (min_tag a b) b.
Proof.
  unfold min_tag. destruct (tag_compare a b <? 0) eqn:C; [apply cmp_lt0 in C; split; [apply tag_le_refl|apply tag_lt_le, C]|apply cmp_lt0_false in C; split; [exact C|apply tag_le_refl]].
Qed.
Lemma peek_le l t : In t l -> tag_le (transit_peek l) t.
Proof.
  induction l as [|x l IH]; intros H; [destruct H|]. cbn [transit_peek fold_right]. destruct H as [->|H]; [apply (proj1 (min_tag_le _ _))|]. eapply tag_le_trans; [apply (proj2 (min_tag_le _ _))|apply IH, H].
Qed.
Lemma peek_in l : transit_peek l = FOREVER_TAG \/ In (transit_peek l) l.
Proof.
  induction l as [|x l IH]; [now left|]. cbn [transit_peek fold_right]. fold (transit_peek l). unfold min_tag. destruct (_ <? 0); [right; now left|]. destruct IH as [IH|IH]; [now left|right; now right].
Qed.
Lemma insert_in t l x : In x (transit_insert t l) <-> x = t \/ In x l.
Proof.
  unfold transit_insert. destruct (existsb (tag_eqb t) l) eqn:E; [|cbn; intuition congruence]. split; [auto|]. intros [->|H]; [|exact H].
  apply existsb_exists in E. destruct E as (y & Hy & E). apply cmp_eq0 in E. congruence.
Qed.
Lemma remove_in t l x : In x (transit_remove t l) <-> In x l /\ (tag_lt t x \/ x = FOREVER_TAG).
Proof. unfold transit_remove. rewrite filter_In, orb_true_iff, cmp_gt0. unfold tag_eqb. rewrite cmp_eq0. reflexivity. Qed.
Lemma held_on j t s i f : held j t s -> (held j t s -> i = j -> In t (r_transit (f (s j))) /\ (r_connected (f (s j)) = true -> tag_le (r_next (f (s j))) t)) -> held j t (on s i f).
Proof.
  intros H Hf. unfold held. destruct (Nat.eq_dec i j) as [->|n]; [rewrite on_same; apply Hf; auto|rewrite on_other by exact n; exact H].
Qed.
Lemma held_tag j t ok s i x : held j t s -> held j t (notify_tag ok s i x).
Proof.
  intros H. unfold notify_tag. destruct (_ || _ || _); [exact H|]. destruct (ok i); apply held_on; try exact H; intros (H1 & H2) _; split; auto. cbn. discriminate.
Qed.
Lemma held_safe j t tp start ok s i : tag_le (mkTag start 0) t -> held j t s -> held j t (notify_if_safe tp start ok s i).
Proof.
  intros Ht. apply notify_if_safe_P; intros; first [apply held_tag; assumption|apply held_on; [assumption|intros (H1' & H2') _; split; [auto|]; auto; try (cbn; discriminate); intros _; exact Ht]].
Qed.
Lemma held_next j t s i x : held j t s -> held j t (on s i (set_next (if tag_compare (transit_peek (r_transit (s i))) x <? 0 then transit_peek (r_transit (s i)) else x))).
Proof.
  intros H. apply held_on; [exact H|]. intros (H1 & _) ->. split; [exact H1|]. intros _. cbn [r_next set_next].
  fold (min_tag (transit_peek (r_transit (s j))) x). eapply tag_le_trans; [apply (proj1 (min_tag_le _ _))|apply peek_le, H1].
Qed.
Lemma held_update j t tp start ok s i x : tag_le (mkTag start 0) t -> held j t s -> held j t (update_fed_next tp start ok s i x).
Proof.
  intros Ht H. unfold update_fed_next. apply update_next_P; [intros; apply held_safe; assumption|apply held_next, H|]. intros _. apply held_on; [apply held_next, H|]. intros K ->. exact K.
Qed.
Lemma held_step j t tp start ok s o s' : tag_le (mkTag start 0) t -> held j t s -> (forall x, o = RRemove j x -> tag_lt x t) -> rti_step tp start ok s o = Some s' -> held j t s'.
Proof.
  intros Ht H Hr E. destruct o as [i x|i x|i x|i k x|i k x|i]; cbn [rti_step] in E.
  - injection E as <-. destruct (r_connected (s i)); [apply held_update; assumption|exact H].
  - injection E as <-. destruct (r_connected (s i)); [|exact H]. apply tag_complete_P; [intros; apply held_safe; assumption|apply held_on; [exact H|auto]].
  - injection E as <-. apply held_on; [exact H|]. intros (H1 & H2) ->. split; [|exact H2]. cbn. apply remove_in. split; [exact H1|]. left. apply Hr. reflexivity.
  - destruct (r_connected (s i)); [|injection E as <-; exact H]. unfold forward in E. destruct (negb (r_connected (s k))); [injection E as <-; exact H|]. destruct (negb (ok k)); [discriminate|].
    injection E as <-. match goal with |- held j t (if _ then update_fed_next tp start ok ?a k x else _) => assert (K : held j t a) end.
    { assert (K : held j t (on s k (add_sent (MMsg x)))) by (apply held_on; [exact H|auto]). destruct (_ <? 0); [|exact K]. apply held_on; [exact K|]. intros (H1 & H2) ->. split; [|exact H2]. cbn [r_transit set_transit]. apply insert_in. now right. }
    destruct (tag_compare x _ <? 0); [apply held_update; assumption|exact K].
  - destruct (_ && _); [|injection E as <-; exact H]. destruct (ok k); [|discriminate]. injection E as <-. apply held_on; [exact H|auto].
  - injection E as <-. destruct (r_connected (s i)); [|exact H]. apply notify_downstream_P; [intros; apply held_safe; assumption|]. apply held_on; [exact H|]. intros (H1 & H2) _. split; [exact H1|]. cbn. discriminate.
Qed.
Lemma held_run j t tp start : tag_le (mkTag start 0) t -> forall l s s', held j t s -> (forall x ok, In (RRemove j x, ok) l -> tag_lt x t) -> rti_run tp start s l = Some s' -> held j t s'.
Proof.
  intros Ht. induction l as [|(o & ok) l IH]; intros s s' H Hr E; cbn in E; [injection E as <-; exact H|]. destruct (rti_step tp start ok s o) as [s1|] eqn:E1; [|discriminate].
  eapply IH; [eapply held_step; [exact Ht|exact H| |exact E1]|intros x ok' Hin; eapply Hr; right; exact Hin|exact E]. intros x ->. eapply Hr. now left.
Qed.
(** The message itself establishes [held]. *)
Lemma held_forward j t tp start ok s i s' : tag_le (mkTag start 0) t -> rti_step tp start ok s (RMsg i j t) = Some s' -> r_connected (s i) = true -> r_connected (s j) = true -> tag_lt (r_completed (s j)) t -> held j t s'.
Proof.
  intros Ht E Ci Cj Hc. cbn [rti_step] in E. rewrite Ci in E. unfold forward in E. rewrite Cj in E. cbn [negb] in E. destruct (negb (ok j)); [discriminate|]. injection E as <-.
  rewrite on_same. cbn [r_completed add_sent]. apply cmp_lt0 in Hc. rewrite Hc. set (a := on _ _ _).
  assert (T : In t (r_transit (a j))) by (unfold a; rewrite on_same; cbn [r_transit set_transit]; apply insert_in; now left).
  destruct (tag_compare t (r_next (a j)) <? 0) eqn:C.
  - unfold update_fed_next. assert (K : held j t (on a j (set_next (if tag_compare (transit_peek (r_transit (a j))) t <? 0 then transit_peek (r_transit (a j)) else t)))).
    { unfold held. rewrite on_same. split; [exact T|]. intros _. cbn [r_next set_next]. fold (min_tag (transit_peek (r_transit (a j))) t). apply (proj2 (min_tag_le _ _)). }
    apply update_next_P; [intros; apply held_safe; assumption|exact K|]. intros _. apply held_on; [exact K|]. intros K' _. exact K'.
  - apply cmp_lt0_false in C. split; [exact T|]. intros _. exact C.
Qed.
