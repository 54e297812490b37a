(** Proofs about the coordination of enclaves (C56). *)
From Verif Require Import Base Tag TagSpec TagProofs Pqueue PqueueProofs RtiDelays RtiDelaysSpec RtiDelaysProofs Rti RtiSpec RtiProofs FederationProofs RtiLocal RtiLocalSpec.
From Coq Require Import Arith.
Open Scope Z_scope.

Section Enclaves.
Variable tp : topo.
Variable start : Z.

Section Grants.
Variable P : rti -> Prop.
Hypothesis Psafe : forall s e, P s -> P (notify_if_safe_l tp start s e).
Lemma notify_down_l_P fuel : forall sv e, P (fst sv) -> P (fst (notify_down_l tp start fuel sv e)).
Proof.
  induction fuel as [|fuel IH]; intros sv e H; [exact H|]. cbn [notify_down_l].
  apply (fold_left_preserves (fun sv : rti * (nat -> bool) => P (fst sv))); [|exact H]. intros [s v] j _ K. cbn [fst snd] in *. destruct (v j); [exact K|]. apply IH. cbn [fst]. apply Psafe, K.
Qed.
Lemma notify_downstream_l_P s e : P s -> P (notify_downstream_l tp start s e).
Proof. intros H. unfold notify_downstream_l. apply notify_down_l_P. exact H. Qed.
Lemma tag_complete_l_P s e t : P (on s e (set_completed t)) -> P (tag_complete_l tp start s e t).
Proof. intros H. unfold tag_complete_l. apply fold_left_preserves; [|exact H]. intros a b _ K. apply notify_downstream_l_P, Psafe, K. Qed.
Lemma update_next_l_P s e t : P (on s e (set_next t)) -> (tp_up tp e = [] -> P (on (on s e (set_next t)) e (set_granted t))) -> P (update_next_l tp start s e t).
Proof. intros H1 H2. unfold update_next_l. apply notify_downstream_l_P. destruct (tp_up tp e) eqn:E; [apply H2; reflexivity|apply Psafe, H1]. Qed.
End Grants.

(** ** What holds in every execution: an enclave runs only what it has been granted. *)
Lemma min_tag_cases a b : min_tag a b = a \/ min_tag a b = b.
Proof. unfold min_tag. destruct (_ <? 0); auto. Qed.
Lemma next_min e : next_tag e = min_tag (e_stop e) (fold_right min_tag FOREVER_TAG (e_queue e)).
Proof. reflexivity. Qed.
Lemma min_tag_glb x a b : tag_le x a -> tag_le x b -> tag_le x (min_tag a b).
Proof. intros. destruct (min_tag_cases a b) as [-> | ->]; assumption. Qed.
Lemma next_queue e a : In a (e_queue e) -> tag_le (next_tag e) a.
Proof. intros H. rewrite next_min. eapply tag_le_trans; [apply (proj2 (min_tag_le _ _))|]. apply (peek_le (e_queue e)), H. Qed.
Lemma next_stop e : tag_le (next_tag e) (e_stop e).
Proof. rewrite next_min. apply (proj1 (min_tag_le _ _)). Qed.
Lemma next_cases e : next_tag e = e_stop e \/ next_tag e = FOREVER_TAG \/ In (next_tag e) (e_queue e).
Proof. rewrite next_min. destruct (min_tag_cases (e_stop e) (fold_right min_tag FOREVER_TAG (e_queue e))) as [-> | ->]; [now left|right]. apply (peek_in (e_queue e)). Qed.
Lemma next_add e t : tag_le (next_tag (add_event e t)) (next_tag e).
Proof.
  rewrite (next_min e), (next_min (add_event e t)). cbn [e_stop e_queue add_event fold_right]. apply min_tag_glb; [apply (proj1 (min_tag_le _ _))|]. eapply tag_le_trans; [apply (proj2 (min_tag_le _ _))|]. apply (proj2 (min_tag_le _ _)).
Qed.
Lemma next_lower p q c s s' m : tag_le s' s -> tag_le (next_tag (mkEnc p q c s' m)) (next_tag (mkEnc p q c s m)).
Proof.
  intros H. rewrite !next_min. cbn [e_stop e_queue]. apply min_tag_glb; [eapply tag_le_trans; [apply (proj1 (min_tag_le _ _))|exact H]|apply (proj2 (min_tag_le _ _))].
Qed.

Definition asks (i : nat) (e : enc) (n : rnode) : Prop :=
  match e_phase e with
  | Asked t | Waiting t _ => tag_le (next_tag e) t
  | Ready t _ => tag_le (next_tag e) t /\ (tp_up tp i <> [] -> tag_le t (r_granted n))
  | Running | Completing _ => tp_up tp i <> [] -> tag_le (e_cur e) (r_granted n)
  | _ => True
  end.
Definition granted_ok (i : nat) (n : rnode) : Prop := tp_up tp i <> [] -> r_granted n = NEVER_TAG \/ In (MTag (r_granted n)) (r_sent n).
Definition asked (y : sys) : Prop := forall i, asks i (y_enc y i) (y_rti y i) /\ granted_ok i (y_rti y i).

(** The coordinator only raises the grants of enclaves that have upstream enclaves. *)
Definition raised (s s' : rti) : Prop := forall i, (tp_up tp i <> [] -> tag_le (r_granted (s i)) (r_granted (s' i))) /\ granted_ok i (s' i).
Lemma raised_on s0 s e f : raised s0 s -> (raised s0 s -> r_granted (f (s e)) = r_granted (s e) /\ r_sent (f (s e)) = r_sent (s e)) -> raised s0 (on s e f).
Proof.
  intros H Hf i. destruct (Hf H) as (F1 & F2). destruct (Nat.eq_dec e i) as [<-|n]; [rewrite on_same|rewrite on_other by exact n; apply H]. unfold granted_ok. rewrite F1, F2. apply H.
Qed.
Lemma raised_safe s0 s e : raised s0 s -> raised s0 (notify_if_safe_l tp start s e).
Proof.
  intros H. unfold notify_if_safe_l.
  assert (K : raised s0 (fst (grant_if_safe tp start s e))) by (apply grant_if_safe_P; [intros; apply raised_on; auto|intros; apply raised_on; auto|exact H]).
  destruct (grant_if_safe tp start s e) as [s1 g]. cbn [fst] in K. destruct g as [(t & p)|]; [|exact K]. destruct (_ =? 0); [exact K|]. destruct p; [exact K|].
  unfold notify_tag. destruct (_ || _ || _) eqn:C; [exact K|]. apply orb_false_iff in C. destruct C as (C & _). apply orb_false_iff in C. destruct C as (_ & C). apply cmp_le0_false in C.
  intros i. destruct (Nat.eq_dec e i) as [<-|n]; [rewrite on_same|rewrite on_other by exact n; apply K]. unfold granted_ok. cbn [r_granted r_sent set_granted add_sent]. split.
  - intros U. eapply tag_le_trans; [apply K, U|apply tag_lt_le, C].
  - intros _. right. apply in_or_app. right. now left.
Qed.
Lemma raised_refl s : (forall i, granted_ok i (s i)) -> raised s s.
Proof. intros H i. split; [intros _; apply tag_le_refl|apply H]. Qed.

Lemma asks_raised i e n n' : asks i e n -> (tp_up tp i <> [] -> tag_le (r_granted n) (r_granted n')) -> asks i e n'.
Proof.
  intros H R. unfold asks in *. destruct (e_phase e); try exact H.
  - destruct H as (H1 & H2). split; [exact H1|]. intros U. eapply tag_le_trans; [apply H2, U|apply R, U].
  - intros U. eapply tag_le_trans; [apply H, U|apply R, U].
  - intros U. eapply tag_le_trans; [apply H, U|apply R, U].
Qed.
Lemma asks_add i e n t : asks i e n -> asks i (add_event e t) n.
Proof.
  intros H. pose proof (next_add e t) as N. unfold asks in *. cbn [add_event e_phase]. fold (add_event e t).
  destruct (e_phase e) eqn:E; try exact H; [eapply tag_le_trans; eassumption|eapply tag_le_trans; eassumption|]. split; [eapply tag_le_trans; [exact N|apply H]|apply H].
Qed.
Lemma asks_stop i e n s' : tag_le s' (e_stop e) -> asks i e n -> asks i (mkEnc (e_phase e) (e_queue e) (e_cur e) s' (e_promise e)) n.
Proof.
  intros L H. pose proof (next_lower (e_phase e) (e_queue e) (e_cur e) _ _ (e_promise e) L) as N. replace (mkEnc (e_phase e) (e_queue e) (e_cur e) (e_stop e) (e_promise e)) with e in N by (destruct e; reflexivity).
  unfold asks in *. cbn [e_phase e_cur]. destruct (e_phase e) eqn:E; try exact H; [eapply tag_le_trans; eassumption|eapply tag_le_trans; eassumption|]. split; [eapply tag_le_trans; [exact N|apply H]|apply H].
Qed.
Lemma asked_enc y i e : asked y -> asks i e (y_rti y i) -> asked (set_enc y i e).
Proof.
  intros H A k. cbn [set_enc y_rti y_enc]. destruct (Nat.eq_dec k i) as [->|n]; [rewrite upd_eq; split; [exact A|apply H]|rewrite upd_neq by exact n; apply H].
Qed.

Lemma asked_step y o y' : asked y -> loc_step tp start y o = Some y' -> asked y'.
Proof.
  intros H K. destruct o as [i t|i t|i t|i|i|i|i|i|i t|i j d|i|i|i]; cbn [loc_step] in K; pose proof (proj1 (H i)) as Hi.
  - destruct (_ && _) in K; [|discriminate]. injection K as <-. apply asked_enc; [exact H|apply asks_add, Hi].
  - destruct (_ && _) in K; [|discriminate]. injection K as <-. apply asked_enc; [exact H|apply asks_add, Hi].
  - destruct (_ && _) eqn:B in K; [|discriminate]. injection K as <-. apply andb_true_iff in B. destruct B as (_ & B). apply cmp_lt0 in B. apply asked_enc; [exact H|]. apply asks_stop; [apply tag_lt_le, B|exact Hi].
  - destruct (e_phase (y_enc y i)) eqn:Ep; try discriminate. injection K as <-. apply asked_enc; [exact H|]. apply tag_le_refl.
  - destruct (e_phase (y_enc y i)) eqn:Ep; try discriminate. injection K as <-. set (s := update_next_l tp start (y_rti y) i t).
    assert (R : raised (y_rti y) s).
    { apply update_next_l_P; [intros; apply raised_safe; assumption|apply raised_on; [apply raised_refl; intros; apply H|auto]|].
      intros U k. destruct (Nat.eq_dec i k) as [<-|n]; [rewrite !on_same|rewrite !on_other by exact n; split; [intros _; apply tag_le_refl|apply H]]. split; [intros U2; contradiction|intros U2; contradiction]. }
    intros k. cbn [y_enc y_rti]. split; [|apply R]. destruct (Nat.eq_dec k i) as [->|n]; [rewrite upd_eq|rewrite upd_neq by exact n; eapply asks_raised; [apply H|apply R]].
    unfold asks in *. rewrite Ep in Hi. destruct (tag_leb t (r_granted (s i))) eqn:T; cbn [set_phase e_phase]; [split; [exact Hi|intros _; apply cmp_le0, T]|exact Hi].
  - destruct (e_phase (y_enc y i)) eqn:Ep; try discriminate. destruct (tag_ltb _ _) in K; [|discriminate]. injection K as <-. apply asked_enc; [exact H|]. unfold asks in *. rewrite Ep in Hi.
    destruct (tag_ltb (r_granted (y_rti y i)) t) eqn:T; cbn [set_phase e_phase]; [exact I|]. split; [exact Hi|]. intros _. apply cmp_lt0_false, T.
  - destruct (e_phase (y_enc y i)) eqn:Ep; try discriminate. destruct (tag_eqb _ _) in K; [|discriminate]. injection K as <-. apply asked_enc; [exact H|]. rewrite <- Ep. apply asks_stop; [|exact Hi].
    destruct (tag_ltb _ _) eqn:T; [apply tag_lt_le, cmp_lt0, T|apply tag_le_refl].
  - destruct (e_phase (y_enc y i)) eqn:Ep; try discriminate. destruct (_ && _) in K; [|discriminate]. injection K as <-. apply asked_enc; [exact H|]. unfold asks in *. rewrite Ep in Hi. cbn [e_phase e_cur]. intros U. eapply tag_le_trans; [apply Hi|apply Hi, U].
  - destruct (e_phase (y_enc y i)) eqn:Ep; try discriminate. destruct (_ && _) in K; [|discriminate]. injection K as <-. apply asked_enc; [exact H|apply asks_add, Hi].
  - destruct (e_phase (y_enc y i)) eqn:Ep; try discriminate. destruct (_ && _) in K; [|discriminate]. set (g := delay_tag _ _) in K. set (s := on _ _ _) in K.
    assert (S : forall k, r_granted (s k) = r_granted (y_rti y k) /\ r_sent (s k) = r_sent (y_rti y k)).
    { intros k. unfold s. destruct (Nat.eq_dec j k) as [<-|n]; [rewrite on_same; destruct (tag_ltb _ _); auto|rewrite on_other by exact n; auto]. }
    clearbody s. destruct (overb _) in K; injection K as <-.
    + intros k. cbn [y_enc y_rti]. destruct (S k) as (S1 & S2). split; [eapply asks_raised; [apply H|rewrite S1; intros _; apply tag_le_refl]|]. unfold granted_ok. rewrite S1, S2. apply H.
    + intros k. cbn [y_enc y_rti]. destruct (S k) as (S1 & S2). destruct (Nat.eq_dec k j) as [->|n].
      * rewrite upd_eq, on_same. split; [apply asks_add; eapply asks_raised; [apply H|cbn [r_granted add_sent]; rewrite S1; intros _; apply tag_le_refl]|]. intros U. cbn [r_granted r_sent add_sent]. rewrite S1, S2. destruct (proj2 (H j) U) as [G|G]; [now left|right]. apply in_or_app. now left.
      * rewrite upd_neq, on_other by congruence. split; [eapply asks_raised; [apply H|rewrite S1; intros _; apply tag_le_refl]|]. unfold granted_ok. rewrite S1, S2. apply H.
  - destruct (e_phase (y_enc y i)) eqn:Ep; try discriminate. injection K as <-. apply asked_enc; [exact H|]. unfold asks in *. rewrite Ep in Hi. exact Hi.
  - destruct (e_phase (y_enc y i)) eqn:Ep; try discriminate. injection K as <-.
    assert (R : raised (y_rti y) (tag_complete_l tp start (y_rti y) i c)) by (apply tag_complete_l_P; [intros; apply raised_safe; assumption|apply raised_on; [apply raised_refl; intros; apply H|auto]]).
    intros k. cbn [y_enc y_rti]. split; [|apply R]. destruct (Nat.eq_dec k i) as [->|n]; [rewrite upd_eq; exact I|rewrite upd_neq by exact n; eapply asks_raised; [apply H|apply R]].
  - destruct (e_phase (y_enc y i)) eqn:Ep; try discriminate. injection K as <-.
    assert (R : raised (y_rti y) (tag_complete_l tp start (y_rti y) i FOREVER_TAG)) by (apply tag_complete_l_P; [intros; apply raised_safe; assumption|apply raised_on; [apply raised_refl; intros; apply H|auto]]).
    intros k. cbn [y_enc y_rti]. split; [|apply R]. destruct (Nat.eq_dec k i) as [->|n]; [rewrite upd_eq; exact I|rewrite upd_neq by exact n; eapply asks_raised; [apply H|apply R]].
Qed.
Lemma asked_init stops : asked (init_sys start stops).
Proof. intros i. split; [exact I|]. intros _. now left. Qed.
Lemma asked_run l : forall y y', asked y -> loc_run tp start y l = Some y' -> asked y'.
Proof.
  induction l as [|o l IH]; intros y y' H K; cbn [loc_run] in K; [injection K as <-; exact H|]. destruct (loc_step tp start y o) as [y1|] eqn:E1; [|discriminate]. eapply IH; [eapply asked_step; eassumption|exact K].
Qed.

(** ** Calm executions *)
Hypothesis Htp : topo_ok tp.
Hypothesis Hrange : forall i, (tp_n tp <= i)%nat -> tp_up tp i = [].
Hypothesis Hz : no_zero_delay_cycle tp.
Hypothesis Hs : 0 <= start < FOREVER.

Notation small := (FederationProofs.small tp start).
Notation good_tag := (FederationProofs.good_tag tp start).
Lemma smallb_l t : smallb tp start t = true <-> small t.
Proof. unfold smallb, FederationProofs.small. rewrite !andb_true_iff, !Z.leb_le, Z.ltb_lt. lia. Qed.

Definition alive (e : enc) : bool := negb (overb e).
Definition lact (e : enc) (a : tag) : Prop :=
  alive e = true /\ (In a (e_queue e) \/ (e_phase e = Running /\ a = e_cur e) \/ (tag_le (e_promise e) a /\ tag_lt (e_cur e) a /\ small a)).

Record local (i : nat) (e : enc) (n : rnode) : Prop := {
  l_small : forall a, lact e a -> small a;
  l_next : r_next n = NEVER_TAG \/ good_tag (r_next n);
  l_cov : forall a, lact e a -> tag_lt (r_completed n) a /\ tag_le (r_next n) a;
  l_queue : alive e = true -> forall a, In a (e_queue e) -> tag_lt (e_cur e) a;
  l_phase : match e_phase e with Completing c => c = e_cur e /\ tag_ok c | Asked t => good_tag t /\ (forall a, lact e a -> tag_le t a) | _ => True end;
  l_comp : alive e = true -> tag_le (r_completed n) (e_cur e) /\ tag_ok (r_completed n);
  l_done : alive e = true -> tp_up tp i <> [] -> tag_le (e_cur e) (r_granted n);
  l_log : grants_respected (r_sent n);
  l_stop : alive e = true -> tag_le (e_promise e) (e_stop e) /\ good_tag (e_stop e);
  l_conn : r_connected n = true }.

Definition cpath (es : nat -> enc) (k : nat) (ds : list Z) (j : nat) : Prop := alive (es k) = true /\ upstream_path tp (fun i => alive (es i)) k ds j.
Definition safe (es : nat -> enc) (s : rti) : Prop :=
  forall k ds j a, cpath es k ds j -> lact (es k) a -> ttime (arriveZ a ds) < FOREVER -> tag_lt (r_granted (s j)) (arriveZ a ds).
Record Inv (es : nat -> enc) (s : rti) : Prop := {
  i_local : forall i, local i (es i) (s i);
  i_safe : safe es s;
  i_delays : forall e c, r_delays (s e) = Some c -> table_ok tp s e c;
  i_order : order_inv tp s }.

Lemma completed_granted es s k : Inv es s -> alive (es k) = true -> tp_up tp k <> [] -> tag_le (r_completed (s k)) (r_granted (s k)).
Proof. intros H A U. pose proof (i_local _ _ H k) as L. eapply tag_le_trans; [apply (l_comp _ _ _ L A)|apply (l_done _ _ _ L A U)]. Qed.

Lemma local_core i e n n' : local i e n -> same_core n n' -> (r_next n' = r_next n \/ r_next n' = mkTag start 0) -> local i e n'.
Proof.
  intros L (E1 & E2 & E3 & E4 & E5 & E6) Hn. destruct L.
  assert (Ss : small (mkTag start 0)) by (destruct Htp; split; cbn [ttime tmicro]; tag_consts; lia).
  constructor; rewrite ?E1, ?E2, ?E3, ?E5, ?E6; try assumption.
  - destruct Hn as [-> | ->]; [assumption|right; left; exact Ss].
  - intros a Ha. split; [apply l_cov0, Ha|]. destruct Hn as [-> | ->]; [apply l_cov0, Ha|]. eapply small_start, l_small0, Ha.
Qed.
Lemma inv_core es s s' : Inv es s -> (forall i, same_core (s i) (s' i)) -> (forall i, r_next (s' i) = r_next (s i) \/ r_next (s' i) = mkTag start 0) ->
  (forall e c, r_delays (s' e) = Some c -> table_ok tp s' e c) -> Inv es s'.
Proof.
  intros H C Hn Hd. constructor.
  - intros i. eapply local_core; [apply (i_local _ _ H)|apply C|apply Hn].
  - intros k ds j a P A T. destruct (C j) as (_ & _ & -> & _). apply (i_safe _ _ H k ds j a); assumption.
  - exact Hd.
  - intros e. destruct (C e) as (_ & _ & E3 & E4 & _ & E6). pose proof (i_order _ _ H e) as O. unfold log_inv in *. rewrite E3, E4, E6. exact O.
Qed.
Lemma inv_cache es s e : Inv es s -> r_delays (s e) = None ->
  Inv es (on s e (set_delays (Some (match compute_delays tp (fun i => r_connected (s i)) e with Delays table zdc _ => (table, zdc) | _ => ([], false) end)))).
Proof.
  intros H _. assert (Hc := computed_ok tp Htp Hrange Hz s e). set (c := match _ with Delays _ _ _ => _ | _ => _ end) in *. clearbody c.
  assert (K : forall i, r_connected (on s e (set_delays (Some c)) i) = r_connected (s i)) by (intros i; destruct (Nat.eq_dec e i) as [<-|n]; [rewrite on_same|rewrite on_other by exact n]; reflexivity).
  apply (inv_core es s); [exact H| | |].
  - intros i. destruct (Nat.eq_dec e i) as [<-|n]; [rewrite on_same|rewrite on_other by exact n]; unfold same_core; auto 10.
  - intros i. destruct (Nat.eq_dec e i) as [<-|n]; [rewrite on_same|rewrite on_other by exact n]; now left.
  - intros e' c'. destruct (Nat.eq_dec e e') as [<-|n]; [rewrite on_same|rewrite on_other by exact n]; intros E.
    + cbn in E. injection E as <-. eapply table_conn; [|exact Hc]. intros i. rewrite K. auto.
    + eapply table_conn; [|apply (i_delays _ _ H), E]. intros i. rewrite K. auto.
Qed.
Lemma inv_start es s k : Inv es s -> r_next (s k) = NEVER_TAG -> Inv es (on s k (set_next (mkTag start 0))).
Proof.
  intros H _. assert (K : forall i, r_connected (on s k (set_next (mkTag start 0)) i) = r_connected (s i)) by (intros i; destruct (Nat.eq_dec k i) as [<-|n]; [rewrite on_same|rewrite on_other by exact n]; reflexivity).
  apply (inv_core es s); [exact H| | |].
  - intros i. destruct (Nat.eq_dec k i) as [<-|n]; [rewrite on_same|rewrite on_other by exact n]; unfold same_core; auto 10.
  - intros i. destruct (Nat.eq_dec k i) as [<-|n]; [rewrite on_same; now right|rewrite on_other by exact n; now left].
  - intros e' c' E. apply (table_conn tp s); [intros i; rewrite K; auto|]. apply (i_delays _ _ H). destruct (Nat.eq_dec k e') as [<-|n]; [rewrite on_same in E|rewrite on_other in E by exact n]; exact E.
Qed.

Definition grant_fits (es : nat -> enc) (e : nat) (t : tag) : Prop :=
  forall k ds a, cpath es k ds e -> lact (es k) a -> ttime (arriveZ a ds) < FOREVER -> tag_lt t (arriveZ a ds).

Lemma completed_fits es s e : Inv es s -> grant_fits es e (min_completed s (tp_up tp e) FOREVER_TAG).
Proof.
  intros H k ds a (Ck & P) A T. destruct (path_unsnoc _ _ _ _ _ P) as (v & d & ds' & -> & Hin & _ & Hv). rewrite arriveZ_app in *.
  assert (Av : alive (es v) = true) by (destruct Hv as [(_ & ->)|Hv]; [exact Ck|exact (path_end _ _ _ _ _ Hv)]).
  pose proof (l_small _ _ _ (i_local _ _ H k) _ A) as Sa. assert (T0 : 0 <= ttime (arriveZ a ds')) by (rewrite arriveZ_time; pose proof (path_time_nonneg ds'); destruct Sa; lia).
  eapply tag_le_lt_trans; [apply (proj2 (min_completed_le s (tp_up tp e) FOREVER_TAG)); [exact Hin|apply (l_conn _ _ _ (i_local _ _ H v))]|].
  apply delay_strict_belowZ; [apply (l_comp _ _ _ (i_local _ _ H v) Av)|apply Htp in Hin; tauto| |exact T0|exact T].
  destruct Hv as [(-> & ->)|Hv]; [apply (l_cov _ _ _ (i_local _ _ H k) _ A)|].
  assert (U : tp_up tp v <> []). { destruct (path_unsnoc _ _ _ _ _ Hv) as (w & d2 & ? & _ & Hw & _). intros K. rewrite K in Hw. destruct Hw. }
  eapply tag_le_lt_trans; [apply (completed_granted _ _ v H Av U)|]. apply (i_safe _ _ H k ds' v a); [split; assumption|exact A|]. rewrite delayZ_time in T. lia.
Qed.

Lemma eimt_fits es s e s' t : Inv es s -> eimt tp start s e = (s', t) ->
  Inv es s' /\ (forall s2, ext s' s2 -> Inv es s2 -> tag_lt (r_next (s2 e)) t -> r_next (s2 e) <> NEVER_TAG -> grant_fits es e (r_next (s2 e))).
Proof.
  intros H E. split; [pose proof (eimt_P tp start (Inv es) (inv_cache es) (inv_start es) s e H) as K; rewrite E in K; exact K|].
  intros s2 X H2 Hlt Hnn k ds a (Ck & P) A T.
  unfold eimt in E. destruct (node_delays tp s e) as [s1 c] eqn:E1.
  assert (D1 : r_delays (s1 e) = Some c) by (unfold node_delays in E1; destruct (r_delays (s e)) eqn:D; injection E1 as <- <-; [exact D|rewrite on_same; reflexivity]).
  pose proof (eimt_loop_bound tp start Hrange Hs (fst c) s1 FOREVER_TAG) as (B1 & B2). pose proof (eimt_loop_ext start Hs s1 (fst c) s1 FOREVER_TAG (ext_refl s1)) as X1. rewrite E in *. cbn [fst snd] in *.
  destruct (X1 e) as (_ & _ & D2). destruct (X e) as (_ & _ & D3). specialize (D3 c (D2 c D1)). destruct (i_delays _ _ H2 e c D3) as (_ & T2 & T3).
  pose proof (l_small _ _ _ (i_local _ _ H2 k) _ A) as Sa. rewrite arriveZ_time in T. assert (Pt : path_time ds < FOREVER) by (destruct Sa; lia).
  assert (P' : upstream_path tp (fun i => r_connected (s2 i)) k ds e) by (eapply path_incl; [|exact P]; intros i _; apply (l_conn _ _ _ (i_local _ _ H2 i))).
  destruct (T3 k ds P' Pt) as (D & Din & Dle). destruct (T2 k D Din) as (Dok & Dm). destruct (B2 k D Din) as (N & B). destruct (X k) as (_ & N2 & _). pose proof (N2 N) as N3. rewrite <- N3 in B. assert (N4 : r_next (s2 k) <> NEVER_TAG) by (rewrite N3; exact N).
  destruct (l_cov _ _ _ (i_local _ _ H2 k) _ A) as (_ & Cov).
  assert (Sn : small (r_next (s2 k))).
  { destruct (l_next _ _ _ (i_local _ _ H2 k)) as [K|[K|K]]; [contradiction|exact K|]. exfalso. rewrite K in Cov. apply (tag_lt_irrefl a). eapply tag_lt_le_trans; [eapply small_forever, Sa|exact Cov]. }
  eapply tag_lt_le_trans; [exact Hlt|]. eapply tag_le_trans; [exact B|]. eapply tag_le_trans; [|apply arriveZ_mono, Cov].
  apply entry_bound; [eapply small_ok; [exact Hs|exact Sn]|destruct Sn; lia|exact Dok|exact Dle|destruct Sn; lia|]. rewrite arriveZ_time. assert (ttime (r_next (s2 k)) <= ttime a) by (clear - Cov; tg; lia). lia.
Qed.

Lemma grant_ok es s e s' g : Inv es s -> grant_if_safe tp start s e = (s', g) -> Inv es s' /\ match g with Some (t, p) => p = false /\ (t <> NEVER_TAG -> grant_fits es e t) | None => True end.
Proof.
  intros H E. split; [pose proof (grant_if_safe_P tp start (Inv es) (inv_cache es) (inv_start es) s e H) as K; rewrite E in K; exact K|].
  unfold grant_if_safe in E. destruct (_ && _) in E.
  - injection E as <- <-. split; [reflexivity|]. intros _. apply completed_fits, H.
  - destruct (eimt tp start s e) as [s1 td] eqn:E1. destruct (eimt_fits es s e s1 td H E1) as (H1 & F). pose proof (strict_ext tp start Hs s1 e) as X. 
    pose proof (eimt_strict_P tp start (Inv es) (inv_cache es) (inv_start es) s1 e H1) as H2. destruct (eimt_strict tp start s1 e) as [s2 ts]. cbn [fst] in *.
    destruct (_ && _ && _ && _) eqn:C in E.
    + injection E as <- <-. split; [reflexivity|]. intros N. rewrite !andb_true_iff in C. destruct C as (((C1 & C2) & _) & _). apply cmp_gt0 in C1. apply (F s2 X H2 C1 N).
    + destruct (_ =? 0) in E; [|injection E as <- <-; exact I]. destruct (node_delays tp s2 e) as [s3 c] eqn:E3.
      assert (Z : snd c = false).
      { pose proof (node_delays_P tp (Inv es) (inv_cache es) s2 e H2) as H3. rewrite E3 in H3. cbn [fst] in H3. apply (i_delays _ _ H3 e).
        unfold node_delays in E3. destruct (r_delays (s2 e)) eqn:D; injection E3 as <- <-; [exact D|rewrite on_same; reflexivity]. }
      rewrite Z in E. cbn [andb] in E. injection E as <- <-. exact I.
Qed.

Lemma log_add l m : grants_respected l -> (forall g, m = MMsg g -> forall t, In (MTag t) l -> tag_lt t g) -> grants_respected (l ++ [m]).
Proof.
  intros H Hm l1 t l2 g E Hg. apply snoc_split in E. destruct E as [(-> & _)|(l2' & -> & E)]; [destruct Hg|]. apply in_app_or in Hg. destruct Hg as [Hg|[Hg|[]]]; [eapply H; eassumption|].
  apply (Hm g Hg). rewrite E. apply in_or_app. right. now left.
Qed.
Lemma inv_tag es s e t : Inv es s -> grant_fits es e t -> Inv es (notify_tag (fun _ => true) s e t).
Proof.
  intros H F. pose proof (order_tag tp (fun _ => true) s e t (i_order _ _ H)) as O. revert O. unfold notify_tag. destruct (_ || _ || _) eqn:C; intros O; [exact H|]. apply orb_false_iff in C. destruct C as (C & _). apply orb_false_iff in C. destruct C as (_ & C). apply cmp_le0_false in C.
  set (n' := fun n => set_granted t (add_sent (MTag t) n)) in *.
  assert (K : forall i, r_connected (on s e n' i) = r_connected (s i)) by (intros i; destruct (Nat.eq_dec e i) as [<-|n]; [rewrite on_same|rewrite on_other by exact n]; reflexivity).
  constructor.
  - intros i. destruct (Nat.eq_dec e i) as [<-|n]; [rewrite on_same|rewrite on_other by exact n; apply (i_local _ _ H)].
    pose proof (i_local _ _ H e) as L. destruct L. constructor; try assumption.
    + intros A U. cbn [n' r_granted set_granted]. eapply tag_le_trans; [apply (l_done0 A U)|apply tag_lt_le, C].
    + apply log_add; [exact l_log0|discriminate].
  - intros k ds j a P A T. destruct (Nat.eq_dec e j) as [<-|n]; [rewrite on_same; cbn; apply (F k ds a P A T)|rewrite on_other by exact n; apply (i_safe _ _ H k ds j a P A T)].
  - intros e' c E. apply (table_conn tp s); [intros i; rewrite K; auto|]. apply (i_delays _ _ H). destruct (Nat.eq_dec e e') as [<-|n]; [rewrite on_same in E|rewrite on_other in E by exact n]; exact E.
  - exact O.
Qed.
Lemma inv_safe es s e : Inv es s -> Inv es (notify_if_safe_l tp start s e).
Proof.
  intros H. unfold notify_if_safe_l. destruct (grant_if_safe tp start s e) as [s1 g] eqn:E. destruct (grant_ok _ _ _ _ _ H E) as (H1 & G). destruct g as [(t & p)|]; [|exact H1].
  destruct (tag_compare t NEVER_TAG =? 0) eqn:C; [exact H1|]. destruct G as (-> & G). apply inv_tag; [exact H1|]. apply G. intros ->. discriminate C.
Qed.

(** ** One enclave, or its record at the coordinator, changes. *)
Definition just (es : nat -> enc) (i : nat) (a : tag) : Prop :=
  (exists a0, lact (es i) a0 /\ tag_le a0 a) \/
  (exists k d o, alive (es k) = true /\ lact (es k) o /\ In (k, d) (tp_up tp i) /\ tag_le (delayZ o d) a).
Lemma inv_upd es s es' s' i : Inv es s -> (forall j, j <> i -> es' j = es j /\ s' j = s j) -> local i (es' i) (s' i) ->
  r_delays (s' i) = r_delays (s i) -> (alive (es' i) = true -> alive (es i) = true) -> (r_granted (s' i) = r_granted (s i) \/ tp_up tp i = []) ->
  log_inv (strict_node tp i) (s' i) -> (forall a, lact (es' i) a -> just es i a) -> Inv es' s'.
Proof.
  intros H Ho L D C G O A.
  assert (K : forall j, alive (es' j) = true -> alive (es j) = true) by (intros j; destruct (Nat.eq_dec j i) as [->|n]; [exact C|destruct (Ho j n) as (-> & _); auto]).
  assert (L' : forall j, local j (es' j) (s' j)) by (intros j; destruct (Nat.eq_dec j i) as [->|n]; [exact L|destruct (Ho j n) as (-> & ->); apply (i_local _ _ H)]).
  constructor.
  - exact L'.
  - intros k ds j a P Ha T. assert (P' : cpath es k ds j) by (destruct P as (P1 & P2); split; [apply K, P1|eapply path_incl; [|exact P2]; exact K]).
    assert (Gj : r_granted (s' j) = r_granted (s j)).
    { destruct (Nat.eq_dec j i) as [->|n]; [|destruct (Ho j n) as (_ & ->); reflexivity]. destruct G as [G|G]; [exact G|]. exfalso. destruct P as (_ & P). apply path_unsnoc in P. destruct P as (v & d & ds' & _ & Hin & _). rewrite G in Hin. destruct Hin. }
    rewrite Gj. destruct (Nat.eq_dec k i) as [->|n].
    + destruct (A a Ha) as [(a0 & A0 & L0)|(k0 & d & o & C0 & A0 & Hin & L0)].
      * pose proof (arriveZ_mono ds a0 a L0) as M. eapply tag_lt_le_trans; [|exact M]. apply (i_safe _ _ H i ds j a0 P' A0). pose proof (tag_le_time _ _ M). lia.
      * pose proof (arriveZ_mono ds _ _ L0) as M. eapply tag_lt_le_trans; [|exact M]. apply (i_safe _ _ H k0 (d :: ds) j o); [split; [exact C0|]|exact A0|cbn; fold (arriveZ (delayZ o d) ds); pose proof (tag_le_time _ _ M); lia].
        destruct P' as (P1 & P2). eapply path_step; [exact Hin|exact P1|exact P2].
    + apply (i_safe _ _ H k ds j a P'); [|exact T]. destruct (Ho k n) as (<- & _). exact Ha.
  - intros e c E. apply (table_conn tp s); [intros j _; apply (l_conn _ _ _ (i_local _ _ H j))|]. apply (i_delays _ _ H). destruct (Nat.eq_dec e i) as [->|n]; [rewrite <- D; exact E|destruct (Ho e n) as (_ & <-); exact E].
  - intros j. destruct (Nat.eq_dec j i) as [->|n]; [exact O|destruct (Ho j n) as (_ & ->); apply (i_order _ _ H)].
Qed.
(** Only the enclave changes. *)
Lemma inv_enc es s i e : Inv es s -> local i e (s i) -> (alive e = true -> alive (es i) = true) -> (forall a, lact e a -> exists a0, lact (es i) a0 /\ tag_le a0 a) -> Inv (upd es i e) s.
Proof.
  intros H L C A. apply (inv_upd es s _ s i H); [|rewrite upd_eq; exact L|reflexivity|rewrite upd_eq; exact C|now left|apply (i_order _ _ H)|].
  - intros j n. split; [apply upd_neq, n|reflexivity].
  - intros a Ha. left. apply A. rewrite upd_eq in Ha. exact Ha.
Qed.

Ltac here := split; [|apply tag_le_refl].
Section Step.
Variable es : nat -> enc.
Variable s : rti.
Hypothesis H : Inv es s.
Variable i : nat.
Let e := es i.
Let n := s i.
Hypothesis Ha : alive e = true.

Lemma inv_phase p : p <> Running -> p <> Over -> match p with Completing c => c = e_cur e /\ tag_ok c | Asked t => False | _ => True end -> Inv (upd es i (set_phase e p)) s.
Proof.
  intros N1 N2 Hp. pose proof (i_local _ _ H i) as L. fold e n in L.
  assert (AA : forall a, lact (set_phase e p) a -> lact e a).
  { intros a (_ & K). split; [exact Ha|]. cbn [set_phase e_phase e_queue e_cur e_promise] in K. destruct K as [K|[(K & _)|K]]; [now left|contradiction|right; now right]. }
  apply inv_enc; [exact H| |intros _; exact Ha|intros a A; exists a; here; apply AA, A].
  destruct L. constructor; cbn [set_phase e_phase e_queue e_cur e_promise e_stop]; auto.
  destruct p; try exact I; [destruct Hp|exact Hp].
Qed.

Lemma inv_add t a0 : small t -> lact e a0 -> tag_le a0 t -> tag_lt (e_cur e) t -> Inv (upd es i (add_event e t)) s.
Proof.
  intros Ht A0 L0 D. pose proof (i_local _ _ H i) as L. fold e n in L.
  assert (AA : forall a, lact (add_event e t) a -> a = t \/ lact e a).
  { intros a (_ & K). cbn [add_event e_phase e_queue e_cur e_promise] in K. destruct K as [[K|K]|K]; [left; auto|right; split; [exact Ha|now left]|right; split; [exact Ha|right; exact K]]. }
  apply inv_enc; [exact H| |intros _; exact Ha|].
  - destruct L. constructor; cbn [add_event e_phase e_queue e_cur e_promise e_stop]; auto.
    + intros a A. apply AA in A. destruct A as [->|A]; [exact Ht|apply l_small0, A].
    + intros a A. apply AA in A. destruct A as [->|A]; [|apply l_cov0, A]. destruct (l_cov0 a0 A0) as (K1 & K2). split; [eapply tag_lt_le_trans; eassumption|eapply tag_le_trans; eassumption].
    + intros _ a [<-|K]; [exact D|apply l_queue0; assumption].
    + destruct (e_phase e); auto. destruct l_phase0 as (K1 & K2). split; [exact K1|]. intros a A. apply AA in A. destruct A as [->|A]; [|apply K2, A]. eapply tag_le_trans; [apply K2, A0|exact L0].
  - intros a A. apply AA in A. destruct A as [->|A]; [exists a0; auto|exists a; here; exact A].
Qed.

Lemma inv_stop t : small t -> tag_le (e_promise e) t -> Inv (upd es i (mkEnc (e_phase e) (e_queue e) (e_cur e) t (e_promise e))) s.
Proof.
  intros Ht Hp. set (e1 := mkEnc _ _ _ _ _). pose proof (i_local _ _ H i) as L. fold e n in L.
  assert (AA : forall a, lact e1 a -> lact e a) by (intros a K; exact K).
  apply inv_enc; [exact H| |intros _; exact Ha|intros a A; exists a; here; apply AA, A].
  destruct L. constructor; auto. intros _. split; [exact Hp|left; exact Ht].
Qed.

Lemma next_good : good_tag (next_tag e).
Proof.
  pose proof (i_local _ _ H i) as L. fold e n in L. destruct (next_cases e) as [->|[->|K]]; [apply (l_stop _ _ _ L Ha)|right; reflexivity|left; apply (l_small _ _ _ L); split; [exact Ha|now left]].
Qed.
Lemma inv_read : e_phase e = Idle -> let t := next_tag e in Inv (upd es i (mkEnc (Asked t) (e_queue e) (e_cur e) (e_stop e) (if tag_ltb (e_promise e) t then t else e_promise e))) s.
Proof.
  intros Ep t. set (p := if tag_ltb _ _ then _ else _). pose proof (i_local _ _ H i) as L. fold e n in L.
  assert (Hp : tag_le (e_promise e) p /\ tag_le t p).
  { unfold p, tag_ltb. destruct (tag_compare (e_promise e) t <? 0) eqn:E; [apply cmp_lt0 in E; split; [apply tag_lt_le, E|apply tag_le_refl]|]. apply cmp_lt0_false in E. split; [apply tag_le_refl|exact E]. }
  set (e1 := mkEnc _ _ _ _ _).
  assert (AA : forall a, lact e1 a -> lact e a).
  { intros a (_ & K). split; [exact Ha|]. cbn [e1 e_phase e_queue e_cur e_promise] in K. destruct K as [K|[(K & _)|(K1 & K2)]]; [now left|discriminate|right; right; split; [eapply tag_le_trans; [apply Hp|exact K1]|exact K2]]. }
  apply inv_enc; [exact H| |intros _; exact Ha|intros a A; exists a; here; apply AA, A].
  pose proof (l_stop _ _ _ L Ha) as (S1 & S2).
  destruct L. constructor; cbn [e1 e_phase e_queue e_cur e_promise e_stop]; auto.
  - split; [apply next_good|]. intros a (_ & K). cbn [e1 e_phase e_queue e_cur e_promise] in K. destruct K as [K|[(K & _)|(K1 & K2)]]; [apply next_queue, K|discriminate|eapply tag_le_trans; [apply Hp|exact K1]].
  - intros _. split; [|exact S2]. unfold p. destruct (tag_ltb _ _); [apply next_stop|exact S1].
Qed.

Lemma inv_record t : e_phase e = Asked t -> Inv es (update_next_l tp start s i t).
Proof.
  intros Ep. pose proof (i_local _ _ H i) as L. fold e n in L. assert (Lp := l_phase _ _ _ L). rewrite Ep in Lp. destruct Lp as (Gt & Lt).
  assert (K : Inv es (on s i (set_next t))).
  { apply (inv_upd es s es _ i H).
    - intros j nj. split; [reflexivity|apply on_other; congruence].
    - rewrite on_same. fold e n. destruct L. constructor; auto; cbn [r_next set_next r_completed]. intros a A. split; [apply l_cov0, A|apply Lt, A].
    - rewrite on_same. reflexivity.
    - auto.
    - left. rewrite on_same. reflexivity.
    - rewrite on_same. apply (i_order _ _ H).
    - intros a A. left. exists a. here. exact A. }
  apply update_next_l_P; [intros; apply inv_safe; assumption|exact K|]. intros U. apply (inv_upd es (on s i (set_next t)) es _ i K).
  - intros j nj. split; [reflexivity|rewrite !on_other by congruence; reflexivity].
  - rewrite on_same. pose proof (i_local _ _ K i) as Li. destruct Li. constructor; auto. intros _ U2. contradiction.
  - rewrite on_same. reflexivity.
  - auto.
  - right. exact U.
  - rewrite on_same. pose proof (i_order _ _ K i) as (O1 & O2 & O3). split; [exact O1|]. split; [exact O2|]. unfold strict_node. rewrite U. discriminate.
  - intros a A. left. exists a. here. exact A.
Qed.

Lemma inv_run_tag : (forall a, e_phase e <> Asked a) -> tag_lt (next_tag e) FOREVER_TAG -> tag_lt (e_cur e) (e_stop e) -> (tp_up tp i <> [] -> tag_le (next_tag e) (r_granted n)) ->
  let t := next_tag e in Inv (upd es i (mkEnc Running (filter (fun x => negb (tag_eqb t x)) (e_queue e)) t (e_stop e) (e_promise e))) s.
Proof.
  intros Np Hf Hst Hg t. pose proof (i_local _ _ H i) as L. fold e n in L.
  assert (At : lact e t).
  { split; [exact Ha|]. unfold t in *. destruct (next_cases e) as [K|[K|K]]; [|exfalso; rewrite K in Hf; exact (tag_lt_irrefl _ Hf)|left; exact K].
    right; right. destruct (l_stop _ _ _ L Ha) as (S1 & S2). rewrite K in *. split; [exact S1|]. split; [exact Hst|]. destruct S2 as [S2|S2]; [exact S2|]. exfalso. rewrite S2 in Hf. exact (tag_lt_irrefl _ Hf). }
  assert (D : tag_lt (e_cur e) t).
  { unfold t in *. destruct (next_cases e) as [K|[K|K]]; [rewrite K; exact Hst|exfalso; rewrite K in Hf; exact (tag_lt_irrefl _ Hf)|apply (l_queue _ _ _ L Ha), K]. }
  set (e1 := mkEnc _ _ _ _ _).
  assert (AA : forall a, lact e1 a -> lact e a).
  { intros a (_ & K). cbn [e1 e_phase e_queue e_cur e_promise] in K. destruct K as [K|[(_ & ->)|(K1 & K2 & K3)]].
    - split; [exact Ha|]. apply filter_In in K. left. apply K.
    - exact At.
    - split; [exact Ha|]. right; right. split; [exact K1|]. split; [eapply tag_le_lt_trans; [apply tag_lt_le, D|exact K2]|exact K3]. }
  apply inv_enc; [exact H| |intros _; exact Ha|intros a A; exists a; here; apply AA, A].
  destruct L. constructor; cbn [e1 e_phase e_queue e_cur e_promise e_stop]; auto.
  - intros _ a K. apply filter_In in K. destruct K as (K1 & K2). apply negb_true_iff in K2. destruct (proj1 (tag_le_lt_or_eq _ _) (next_queue e a K1)) as [E|E]; [exact E|]. exfalso. subst a. unfold tag_eqb in K2. unfold t in K2. rewrite (proj2 (cmp_eq0 (next_tag e) (next_tag e)) eq_refl) in K2. discriminate.
  - intros _. destruct (l_comp0 Ha) as (C1 & C2). split; [|exact C2]. eapply tag_le_trans; [exact C1|apply tag_lt_le, D].
Qed.

Lemma inv_ltc c : e_phase e = Completing c -> Inv es (tag_complete_l tp start s i c).
Proof.
  intros Ep. pose proof (i_local _ _ H i) as L. fold e n in L. assert (Lp := l_phase _ _ _ L). rewrite Ep in Lp. destruct Lp as (-> & Oc).
  apply tag_complete_l_P; [intros; apply inv_safe; assumption|]. apply (inv_upd es s es _ i H).
  - intros j nj. split; [reflexivity|apply on_other; congruence].
  - rewrite on_same. fold e n. destruct L. constructor; auto; cbn [r_next set_completed r_completed].
    + intros a A. split; [|apply l_cov0, A]. destruct A as (_ & [K|[(K & _)|(_ & K & _)]]); [apply l_queue0; assumption|congruence|exact K].
    + intros _. split; [apply tag_le_refl|exact Oc].
  - rewrite on_same. reflexivity.
  - auto.
  - left. rewrite on_same. reflexivity.
  - rewrite on_same. apply (i_order _ _ H).
  - intros a A. left. exists a. here. exact A.
Qed.

Lemma inv_end : Inv (upd es i (mkEnc Over [] (e_cur e) (e_stop e) (e_promise e))) (tag_complete_l tp start s i FOREVER_TAG).
Proof.
  set (e1 := mkEnc _ _ _ _ _). pose proof (i_local _ _ H i) as L. fold e n in L.
  assert (N : forall a, ~ lact e1 a) by (intros a (K & _); discriminate).
  apply tag_complete_l_P; [intros; apply inv_safe; assumption|]. apply (inv_upd es s _ _ i H).
  - intros j nj. split; [apply upd_neq, nj|apply on_other; congruence].
  - rewrite on_same, upd_eq. fold n. destruct L. constructor; auto; try discriminate; try (intros a A; destruct (N a A)). exact I.
  - rewrite on_same. reflexivity.
  - rewrite upd_eq. discriminate.
  - left. rewrite on_same. reflexivity.
  - rewrite on_same. apply (i_order _ _ H).
  - intros a A. rewrite upd_eq in A. destruct (N a A).
Qed.
End Step.

(** An event for [j] from [i]. *)
Lemma sent_tag c d i j : has_connection tp i j d = true -> in_int64b d = true -> tmicro c < UINT_MAX -> small c -> small (delay_tag c d) -> exists d', In (i, d') (tp_up tp j) /\ tag_le (delayZ c d') (delay_tag c d).
Proof.
  intros Hcon Hd Hm Sc Sg. unfold has_connection in Hcon. apply existsb_exists in Hcon. destruct Hcon as ((k & d') & Hin & Hk). cbn [fst snd] in Hk. apply andb_true_iff in Hk. destruct Hk as (Hk & Hd').
  apply Nat.eqb_eq in Hk. subst k. apply Z.leb_le in Hd'. exists d'. split; [exact Hin|]. eapply tag_le_trans; [apply delayZ_mono_d, Hd'|].
  assert (T : ttime c + Z.max 0 d < FOREVER).
  { destruct (Z.ltb_spec d 0); [destruct Sc; lia|]. revert Sg. unfold delay_tag. replace (d <? 0) with false by lia. destruct (_ || _) eqn:B; [destruct Sc as (Sc & _); intros _; apply orb_true_iff in B; destruct B as [B|B]; [|discriminate]; apply Z.eqb_eq in B; tag_consts; lia|].
    destruct (Z.leb_spec (FOREVER - d) (ttime c)); [intros (K & _); cbn in K; lia|]. lia. }
  rewrite delay_tag_exact; [apply tag_le_refl|apply (small_ok tp start Hs), Sc|apply in_int64b_spec, Hd|exact T|destruct Sc; tag_consts; lia|exact Hm].
Qed.

Lemma lower_next es s j g : Inv es s -> small g -> Inv es (on s j (fun n => if tag_ltb g (r_next n) then set_next g n else n)).
Proof.
  intros H Sg. apply (inv_upd es s es _ j H).
  - intros k n. split; [reflexivity|apply on_other; congruence].
  - rewrite on_same. pose proof (i_local _ _ H j) as L. destruct (tag_ltb g (r_next (s j))) eqn:T; [|exact L]. apply cmp_lt0 in T. destruct L. constructor; auto; cbn [r_next set_next r_completed]; [right; left; exact Sg|].
    intros a A. destruct (l_cov0 a A) as (K1 & K2). split; [exact K1|]. eapply tag_le_trans; [apply tag_lt_le, T|exact K2].
  - rewrite on_same. destruct (tag_ltb _ _); reflexivity.
  - auto.
  - left. rewrite on_same. destruct (tag_ltb _ _); reflexivity.
  - rewrite on_same. destruct (tag_ltb _ _); apply (i_order _ _ H).
  - intros a A. left. exists a. here. exact A.
Qed.

Lemma inv_send es s i j d : Inv es s -> e_phase (es i) = Running -> overb (es j) = false -> (forall t, e_phase (es j) <> Asked t) ->
  has_connection tp i j d = true -> in_int64b d = true -> tmicro (e_cur (es i)) < UINT_MAX -> let g := delay_tag (e_cur (es i)) d in small g ->
  Inv (upd es j (add_event (es j) g)) (on (on s j (fun n => if tag_ltb g (r_next n) then set_next g n else n)) j (add_sent (MMsg g))).
Proof.
  intros H Ep Oj Nj Hcon Hd Hm g Sg. assert (Ai : alive (es i) = true) by (unfold alive, overb; rewrite Ep; reflexivity). assert (Aj : alive (es j) = true) by (unfold alive; rewrite Oj; reflexivity).
  assert (Ac : lact (es i) (e_cur (es i))) by (split; [exact Ai|right; left; auto]). pose proof (l_small _ _ _ (i_local _ _ H i) _ Ac) as Sc.
  destruct (sent_tag _ _ _ _ Hcon Hd Hm Sc Sg) as (d' & Hin & Ld). fold g in Ld.
  assert (Un : tp_up tp j <> []) by (intros K; rewrite K in Hin; destruct Hin).
  assert (G : tag_lt (r_granted (s j)) g).
  { eapply tag_lt_le_trans; [|exact Ld]. apply (i_safe _ _ H i [d'] j (e_cur (es i))); [split; [exact Ai|apply path_one; [exact Hin|exact Aj]]|exact Ac|]. change (arriveZ (e_cur (es i)) [d']) with (delayZ (e_cur (es i)) d'). apply tag_le_time in Ld. destruct Sg. lia. }
  pose proof (i_local _ _ H j) as L0. assert (Dj := l_done _ _ _ L0 Aj Un). assert (Cj := completed_granted _ _ j H Aj Un).
  pose proof (lower_next es s j g H Sg) as H1. set (s1 := on s j _) in *.
  assert (Q : r_granted (s1 j) = r_granted (s j) /\ r_completed (s1 j) = r_completed (s j) /\ tag_le (r_next (s1 j)) g).
  { unfold s1. rewrite on_same. destruct (tag_ltb g (r_next (s j))) eqn:T; (split; [reflexivity|]); (split; [reflexivity|]); [apply tag_le_refl|apply cmp_lt0_false, T]. }
  clearbody s1. destruct Q as (Q1 & Q2 & Q3). pose proof (i_local _ _ H1 j) as L.
  assert (AA : forall a, lact (add_event (es j) g) a -> a = g \/ lact (es j) a).
  { intros a (_ & K). cbn [add_event e_phase e_queue e_cur e_promise] in K. destruct K as [[K|K]|K]; [left; auto|right; split; [exact Aj|now left]|right; split; [exact Aj|right; exact K]]. }
  apply (inv_upd es s1 _ _ j H1).
  - intros k n. split; [apply upd_neq, n|apply on_other; congruence].
  - rewrite upd_eq, on_same. destruct L. constructor; auto; cbn [add_sent r_next r_completed r_granted r_sent add_event e_phase e_queue e_cur e_promise e_stop].
    + intros a A. apply AA in A. destruct A as [->|A]; [exact Sg|apply l_small0, A].
    + intros a A. apply AA in A. destruct A as [->|A]; [|apply l_cov0, A]. split; [|exact Q3]. rewrite Q2. eapply tag_le_lt_trans; [exact Cj|exact G].
    + intros _ a [<-|K]; [eapply tag_le_lt_trans; [exact Dj|exact G]|apply l_queue0; assumption].
    + destruct (e_phase (es j)) as [|t| | | | |] eqn:E; auto. exfalso. exact (Nj t eq_refl).
    + apply log_add; [exact l_log0|]. intros g' E t Ht. injection E as <-. eapply tag_le_lt_trans; [|exact G]. rewrite <- Q1. destruct (i_order _ _ H1 j) as (_ & _ & O). apply O; [unfold strict_node; destruct (tp_up tp j); [contradiction|reflexivity]|exact Ht].
  - rewrite on_same. reflexivity.
  - intros _. exact Aj.
  - left. rewrite on_same. reflexivity.
  - rewrite on_same. eapply (log_snoc _ _ (MMsg g)); [apply (i_order _ _ H1)|reflexivity|intros m _; destruct m; exact I|split; reflexivity].
  - intros a A. rewrite upd_eq in A. apply AA in A. destruct A as [->|A]; [|left; exists a; here; exact A]. right. exists i, d', (e_cur (es i)). auto.
Qed.

Lemma inv_init stops : (forall i, good_tag (stops i)) -> Inv (init_enc start stops) init_rti.
Proof.
  intros Hst. assert (Ss : small (mkTag start 0)) by (destruct Htp; split; cbn [ttime tmicro]; tag_consts; lia).
  assert (AA : forall i a, lact (init_enc start stops i) a -> small a).
  { intros i a (_ & [[<-|[]]|[(K & _)|(_ & _ & K)]]); [exact Ss|discriminate|exact K]. }
  constructor.
  - intros i. constructor; cbn [init_enc e_phase e_queue e_cur e_promise e_stop init_rti init_node r_next r_completed r_granted r_sent r_connected]; auto.
    + apply AA.
    + intros a A. apply AA in A. split; [|apply tag_lt_le]; apply (small_never tp start Hs), A.
    + intros _ a [<-|[]]. apply (small_never tp start Hs), Ss.
    + intros _. split; [apply tag_le_refl|tag_consts; lia].
    + intros _ _. apply tag_le_refl.
    + intros l1 t l2 g K. destruct l1; discriminate.
    + intros _. split; [|apply Hst]. destruct (Hst i) as [K| ->]; [eapply small_start, K|]. apply tag_lt_le. eapply small_forever, Ss.
  - intros k ds j a P A T. apply AA in A. 
    eapply tag_lt_le_trans; [apply (small_never tp start Hs), A|]. rewrite arriveZ_exact in *. cbn [ttime] in T. pose proof (path_time_nonneg ds). pose proof (path_micro_bound ds). destruct (Z.eqb_spec (path_time ds) 0); destruct A; tg; lia.
  - intros e c K. discriminate.
  - apply order_init.
Qed.

Lemma inv_step y o y' : Inv (y_enc y) (y_rti y) -> asked y -> calm y o -> loc_step tp start y o = Some y' -> Inv (y_enc y') (y_rti y').
Proof.
  intros H As C K.
  assert (Live : forall i p, e_phase (y_enc y i) = p -> p <> Over -> alive (y_enc y i) = true) by (intros i p E N; unfold alive, overb; rewrite E; destruct p; congruence || reflexivity).
  destruct o as [i t|i t|i t|i|i|i|i|i|i t|i j d|i|i|i]; cbn [loc_step] in K; try (destruct C; fail).
  - destruct (_ && _) eqn:B in K; [|discriminate]. injection K as <-. cbn [y_enc y_rti set_enc]. rewrite !andb_true_iff in B. destruct B as (((B1 & B2) & B3) & B4). apply cmp_le0 in B3. apply cmp_lt0 in B4. apply smallb_l in B2.
    apply (inv_add _ _ H i B1 t t); [exact B2| |apply tag_le_refl|exact B4]. split; [exact B1|]. right; right. auto.
  - destruct (_ && _) eqn:B in K; [|discriminate]. injection K as <-. cbn [y_enc y_rti set_enc]. rewrite !andb_true_iff in B. destruct B as (((B1 & B2) & _) & _). apply smallb_l in B2. apply (inv_stop _ _ H i B1 t B2). exact C.
  - destruct (e_phase (y_enc y i)) eqn:Ep; try discriminate. injection K as <-. cbn [y_enc y_rti set_enc]. apply (inv_read _ _ H i); [eapply Live; [exact Ep|discriminate]|exact Ep].
  - destruct (e_phase (y_enc y i)) eqn:Ep; try discriminate. injection K as <-. cbn [y_enc y_rti]. set (s := update_next_l _ _ _ _ _). assert (H1 : Inv (y_enc y) s) by (apply (inv_record _ _ H i _ Ep)). clearbody s.
    assert (A : alive (y_enc y i) = true) by (eapply Live; [exact Ep|discriminate]). apply (inv_phase _ _ H1 i A); destruct (tag_leb _ _); discriminate || exact I.
  - destruct (e_phase (y_enc y i)) eqn:Ep; try discriminate. destruct (tag_ltb _ _) in K; [|discriminate]. injection K as <-. cbn [y_enc y_rti set_enc].
    assert (A : alive (y_enc y i) = true) by (eapply Live; [exact Ep|discriminate]). apply (inv_phase _ _ H i A); destruct (tag_ltb _ _); discriminate || exact I.
  - destruct (e_phase (y_enc y i)) eqn:Ep; try discriminate. destruct (_ && _) eqn:B in K; [|discriminate]. injection K as <-. cbn [y_enc y_rti set_enc]. apply andb_true_iff in B. destruct B as (B1 & B2). apply cmp_lt0 in B1, B2.
    pose proof (proj1 (As i)) as Ai. unfold asks in Ai. rewrite Ep in Ai. destruct Ai as (Ai1 & Ai2). apply (inv_run_tag _ _ H i); [eapply Live; [exact Ep|discriminate]|rewrite Ep; discriminate|exact B1|exact B2|]. intros U. eapply tag_le_trans; [exact Ai1|apply Ai2, U].
  - destruct (e_phase (y_enc y i)) eqn:Ep; try discriminate. destruct (_ && _) eqn:B in K; [|discriminate]. injection K as <-. cbn [y_enc y_rti set_enc]. apply andb_true_iff in B. destruct B as (B1 & B2). apply smallb_l in B1. apply cmp_lt0 in B2.
    assert (A : alive (y_enc y i) = true) by (eapply Live; [exact Ep|discriminate]). apply (inv_add _ _ H i A t (e_cur (y_enc y i))); [exact B1| |apply tag_lt_le, B2|exact B2]. split; [exact A|right; left; auto].
  - destruct (e_phase (y_enc y i)) eqn:Ep; try discriminate. destruct (_ && _) eqn:B in K; [|discriminate]. rewrite !andb_true_iff in B. destruct B as (((B1 & B2) & B3) & B4). apply smallb_l in B4. apply Z.ltb_lt in B3.
    destruct (overb (y_enc y j)) eqn:Oj in K; injection K as <-; cbn [y_enc y_rti]; [apply lower_next; assumption|]. apply inv_send; assumption.
  - destruct (e_phase (y_enc y i)) eqn:Ep; try discriminate. injection K as <-. cbn [y_enc y_rti set_enc]. assert (A : alive (y_enc y i) = true) by (eapply Live; [exact Ep|discriminate]).
    apply (inv_phase _ _ H i A); [discriminate|discriminate|]. split; [reflexivity|]. apply (small_ok tp start Hs), (l_small _ _ _ (i_local _ _ H i)). split; [exact A|right; left; auto].
  - destruct (e_phase (y_enc y i)) eqn:Ep; try discriminate. injection K as <-. cbn [y_enc y_rti]. assert (A : alive (y_enc y i) = true) by (eapply Live; [exact Ep|discriminate]).
    apply (inv_phase _ _ (inv_ltc _ _ H i A c Ep) i A); [discriminate|discriminate|exact I].
  - destruct (e_phase (y_enc y i)) eqn:Ep; try discriminate. injection K as <-. cbn [y_enc y_rti]. apply (inv_end _ _ H i). eapply Live; [exact Ep|discriminate].
Qed.

Lemma calm_inv stops y : (forall i, good_tag (stops i)) -> calm_run tp start stops y -> Inv (y_enc y) (y_rti y) /\ asked y.
Proof.
  intros Hst R. induction R as [|y o y' R IH C K]; [split; [apply inv_init, Hst|apply asked_init]|]. destruct IH as (IH1 & IH2). split; [eapply inv_step; eassumption|eapply asked_step; eassumption].
Qed.
End Enclaves.

(** A check whether an operation list is calm. *)
Definition calmb (y : sys) (o : lop) : bool :=
  match o with
  | EPhysical _ _ | EStarve _ => false
  | EStop i t => tag_leb (e_promise (y_enc y i)) t
  | ESend _ j _ => match e_phase (y_enc y j) with Asked _ => false | _ => true end
  | _ => true
  end.
Fixpoint calm_list (tp : topo) (start : Z) (y : sys) (l : list lop) : bool :=
  match l with
  | [] => true
  | o :: l => calmb y o && match loc_step tp start y o with Some y => calm_list tp start y l | None => false end
  end.
Lemma calm_list_run tp start stops l : forall y y', calm_run tp start stops y -> calm_list tp start y l = true -> loc_run tp start y l = Some y' -> calm_run tp start stops y'.
Proof.
  induction l as [|o l IH]; intros y y' R C E; cbn [loc_run calm_list] in *; [injection E as <-; exact R|]. apply andb_true_iff in C. destruct C as (C1 & C2). destruct (loc_step tp start y o) as [y1|] eqn:E1; [|discriminate].
  apply (IH y1 y'); [|exact C2|exact E]. eapply calm_step; [exact R| |exact E1]. destruct o; cbn [calm calmb] in *; auto; try discriminate; [apply cmp_le0, C1|]. intros t K. rewrite K in C1. discriminate.
Qed.
