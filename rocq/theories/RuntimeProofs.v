(** Lemmas for C25, C27, C28. *)
From Verif Require Import Base Tag TagSpec TagProofs Pqueue PqueueProofs Token TokenSpec TokenProofs Schedule ScheduleSpec ScheduleProofs Runtime RuntimeSpec.
From Coq Require Import Arith.
Open Scope Z_scope.

Lemma min_tag_none q : min_tag q = None -> q = [].
Proof. destruct q as [|v q]; [reflexivity|]. cbn. destruct (fold_right _ _ _); discriminate. Qed.
Lemma min_tag_some q t : min_tag q = Some t -> (exists v, In v q /\ ev_tag v = t) /\ forall v, In v q -> tag_le t (ev_tag v).
Proof.
  revert t. induction q as [|v q IH]; intros t H; [discriminate|]. cbn in H. destruct (fold_right _ None q) as [u|] eqn:E.
  - injection H as <-. destruct (IH u E) as ((w & Hw & Ew) & Hall). destruct (tag_compare (ev_tag v) u <=? 0) eqn:Ec.
    + apply Z.leb_le, tag_compare_le in Ec. split; [exists v; split; [left|]; reflexivity|]. intros x [<-|Hx]; [apply tag_le_refl|]. eapply tag_le_trans; [exact Ec|apply Hall, Hx].
    + split; [exists w; split; [right; exact Hw|exact Ew]|]. intros x [<-|Hx]; [|apply Hall, Hx]. apply tag_lt_le, tag_not_le. rewrite <- tag_compare_le. lia.
  - injection H as <-. apply min_tag_none in E. subst q. split; [exists v; split; [left|]; reflexivity|]. intros x [<-|[]]. apply tag_le_refl.
Qed.
Lemma at_tag_spec t v : at_tag t v = true <-> ev_tag v = t.
Proof. unfold at_tag. rewrite Z.eqb_eq, tag_compare_eq. reflexivity. Qed.

Lemma bump_ok t : tag_ok t -> tag_ok (bump t).
Proof. intros (A & B). split; [exact A|]. cbn. unfold in_uint32, UINT_MAX in *. pose proof (Z.mod_pos_bound (tmicro t + 1) two32 eq_refl). unfold two32 in *. lia. Qed.
Lemma bump_after t : tag_ok t -> tmicro t < UINT_MAX -> bump t = mkTag (ttime t) (tmicro t + 1) /\ tag_lt t (bump t).
Proof.
  intros H Hm. assert (E : bump t = mkTag (ttime t) (tmicro t + 1)) by (unfold bump; rewrite Z.mod_small by (tag_consts; unfold two32; lia); reflexivity).
  rewrite E. split; [reflexivity|]. unfold tag_lt; cbn; lia.
Qed.

(** *** Stop tag *)
Lemma set_stop_spec e t : e_q (set_stop e t) = e_q e /\ e_cur (set_stop e t) = e_cur e /\ e_tr (set_stop e t) = e_tr e /\ e_started (set_stop e t) = e_started e /\
  tag_le (e_stop (set_stop e t)) (e_stop e) /\ tag_le (e_stop (set_stop e t)) t /\ (e_stop (set_stop e t) = t \/ e_stop (set_stop e t) = e_stop e).
Proof.
  unfold set_stop. destruct (tag_compare t (e_stop e) <? 0) eqn:E.
  - cbn. repeat split; try (apply tag_le_refl); auto. apply tag_compare_le. lia.
  - repeat split; try (apply tag_le_refl); auto. apply tag_compare_ge. lia.
Qed.
Lemma sound_stop s : sound s -> tmicro (e_cur (r_env s)) < UINT_MAX ->
  sound (rt_env s (set_stop (r_env s) (bump (e_cur (r_env s))))) /\
  (tag_lt (e_cur (r_env s)) (e_stop (r_env s)) -> tag_lt (e_cur (r_env s)) (e_stop (set_stop (r_env s) (bump (e_cur (r_env s)))))).
Proof.
  intros (A & B & C & D & F) Hm. destruct (bump_after _ C Hm) as (_ & Hlt). destruct (set_stop_spec (r_env s) (bump (e_cur (r_env s)))) as (E1 & E2 & E3 & E4 & E5 & E6 & E7).
  split.
  - unfold sound, future_queue; cbn [rt_env r_env]. rewrite E1, E2, E4. split; [exact A|]. split; [destruct E7 as [->| ->]; [apply tag_lt_le, Hlt|exact B]|].
    split; [exact C|]. split; [destruct E7 as [->| ->]; [apply (bump_ok _ C)|exact D]|exact F].
  - intros H. destruct E7 as [->| ->]; [exact Hlt|exact H].
Qed.

(** *** Schedule calls *)
Lemma sched_static nd now e tr extra tok e' h : sched nd now e (Some tr) extra tok = Ok (e', h) ->
  forall u, tg_timer (e_tr e' u) = tg_timer (e_tr e u) /\ tg_period (e_tr e' u) = tg_period (e_tr e u) /\ tg_phys (e_tr e' u) = tg_phys (e_tr e u).
Proof.
  intros H u. apply sched_call in H. destruct H as (_ & [A B|v A _ _ _ B|t A B D F G I|b A B D F]); rewrite B; auto;
    (destruct (Nat.eq_dec u tr) as [->|N]; [rewrite with_last_same; cbn; auto|rewrite with_last_other by exact N; auto]).
Qed.
Lemma revalued_tags e e' tr t tok v : revalued e e' tr t tok -> In v (e_q e') -> exists w, In w (e_q e) /\ ev_tag w = ev_tag v.
Proof.
  intros (a & x & b & E1 & E2 & E3) H. rewrite E3, in_app_iff in H. cbn [In] in H. destruct H as [H|[<-|H]].
  - exists v. rewrite E1, in_app_iff. auto.
  - exists x. rewrite E1, in_app_iff. cbn [In]. unfold key in E2. injection E2 as _ ->. auto.
  - exists v. rewrite E1, in_app_iff. cbn [In]. auto.
Qed.
Lemma sound_env s e' : sound s -> same_clock (r_env s) e' -> future_queue e' -> sound (rt_env s e').
Proof. intros (A & B & C & D & F) (E1 & E2 & E3) H. unfold sound; cbn [rt_env r_env]. rewrite E1, E2, E3. auto. Qed.

Lemma sched_sound nd now s tr extra tok e' h : sound s -> sched_ok nd now (r_env s) tr extra -> sched nd now (r_env s) (Some tr) extra tok = Ok (e', h) -> sound (rt_env s e').
Proof.
  intros S Hok H. pose proof (sched_effect _ _ _ _ _ _ _ _ H Hok) as Heff. apply sched_call in H. destruct H as (Hc & _). eapply sound_env; [exact S|exact Hc|].
  destruct S as (A & _). destruct Hc as (E1 & _). intros v Hv. rewrite E1. destruct Heff as [Q|[(t & Q)|(t & Q & Q1 & _)]].
  - rewrite Q in Hv. apply A, Hv.
  - destruct (revalued_tags _ _ _ _ _ _ Q Hv) as (w & Hw & <-). apply A, Hw.
  - rewrite Q in Hv. destruct Hv as [<-|Hv]; [exact Q1|apply A, Hv].
Qed.

Lemma act_sound P nd s a s' : sound s -> act_ok nd s a -> act P nd s a = Ok s' ->
  sound s' /\ e_cur (r_env s') = e_cur (r_env s) /\ tag_le (e_stop (r_env s')) (e_stop (r_env s)) /\
  (tag_lt (e_cur (r_env s)) (e_stop (r_env s)) -> tag_lt (e_cur (r_env s')) (e_stop (r_env s'))) /\
  (e_cur (r_env s) = e_stop (r_env s) -> e_stop (r_env s') = e_stop (r_env s)).
Proof.
  intros S Ha H. destruct a as [now tr extra tok|f|]; cbn [act act_ok] in *.
  - bind_inv H. injection H as <-. destruct x as [e' h]. pose proof (sched_sound _ _ _ _ _ _ _ _ S Ha E) as S'. apply sched_call in E. destruct E as ((E1 & E2 & E3) & _).
    cbn [rt_env r_env fst]. rewrite E1, E2. split; [exact S'|]. split; [reflexivity|]. split; [apply tag_le_refl|]. auto.
  - unfold mark in H. destruct (_ <? INT_MAX); [|discriminate]. injection H as <-. cbn [r_env]. split; [exact S|]. split; [reflexivity|]. split; [apply tag_le_refl|]. auto.
  - injection H as <-. destruct (sound_stop s S Ha) as (S' & Hlt). unfold request_stop in *. cbn [rt_env r_env].
    destruct (set_stop_spec (r_env s) (bump (e_cur (r_env s)))) as (E1 & E2 & E3 & E4 & E5 & E6 & E7). rewrite E2.
    split; [exact S'|]. split; [reflexivity|]. split; [exact E5|]. split; [exact Hlt|].
    intros Heq. destruct E7 as [E7|E7]; [|exact E7]. exfalso. destruct S as (_ & _ & C & _). destruct (bump_after _ C Ha) as (_ & K). rewrite E7, <- Heq in E5.
    apply tag_not_lt in E5. contradiction.
Qed.
Lemma acts_sound P nd : forall l s s', sound s -> acts_ok P nd s l -> acts P nd s l = Ok s' ->
  sound s' /\ e_cur (r_env s') = e_cur (r_env s) /\ tag_le (e_stop (r_env s')) (e_stop (r_env s)) /\
  (tag_lt (e_cur (r_env s)) (e_stop (r_env s)) -> tag_lt (e_cur (r_env s')) (e_stop (r_env s'))) /\
  (e_cur (r_env s) = e_stop (r_env s) -> e_stop (r_env s') = e_stop (r_env s)).
Proof.
  induction l as [|a l IH]; intros s s' S Hok H; cbn in H.
  - injection H as <-. split; [exact S|]. split; [reflexivity|]. split; [apply tag_le_refl|]. auto.
  - bind_inv H. destruct Hok as (H1 & H2). destruct (act_sound _ _ _ _ _ S H1 E) as (S1 & A1 & A2 & A3 & A4). destruct (IH x s' S1 (H2 x E) H) as (S2 & B1 & B2 & B3 & B4).
    split; [exact S2|]. split; [congruence|]. split; [eapply tag_le_trans; eassumption|]. split; [auto|]. intros Heq. rewrite B4; [apply A4, Heq|]. rewrite A1, A4 by exact Heq. exact Heq.
Qed.

(** *** Popping *)
Lemma timer_effect nd now e tr e' h : tg_timer (e_tr e tr) = true -> tg_phys (e_tr e tr) = false -> 0 < tg_period (e_tr e tr) ->
  NEVER < ttime (e_cur e) < FOREVER ->
  sched nd now e (Some tr) (tg_period (e_tr e tr)) None = Ok (e', h) ->
  same_clock e e' /\ (e_q e' = e_q e \/ exists t, inserted e e' (mkEv t (Some tr) None) /\ tag_lt (e_cur e) t /\ tag_le t (e_stop e)).
Proof.
  intros Ht Hp Hper Hr H. apply sched_call in H. destruct H as (Hc & Hcall). split; [exact Hc|].
  assert (Hb : tag_lt (e_cur e) (base nd now e (e_tr e tr) (tg_period (e_tr e tr)))).
  { unfold base, total_delay. rewrite Hp, Ht. replace (Z.max 0 (tg_period (e_tr e tr)) + 0) with (tg_period (e_tr e tr)) by lia.
    assert (K : ttime (e_cur e) < ttime (delay_tag (e_cur e) (tg_period (e_tr e tr)))).
    { unfold delay_tag. repeat case_if; cbn; unfold FOREVER_TAG; cbn; lia. }
    left. pose proof (clamp_time nd e (delay_tag (e_cur e) (tg_period (e_tr e tr)))). lia. }
  destruct Hcall as [A _|v A _ ((_ & F) & _)|t A _ D F|b A _ D [(-> & _)|(_ & ((_ & F) & _) & _)]]; try congruence; try lia.
  - left; exact A.
  - right. rewrite settle_id in A, D by exact Hb. eexists. split; [exact A|]. auto.
Qed.

Definition grown (e e' : env) : Prop :=
  same_clock e e' /\ (forall v, In v (e_q e) -> In v (e_q e')) /\ (future_queue e -> future_queue e') /\
  (forall u, tg_timer (e_tr e' u) = tg_timer (e_tr e u) /\ tg_period (e_tr e' u) = tg_period (e_tr e u) /\ tg_phys (e_tr e' u) = tg_phys (e_tr e u)).
Lemma grown_refl e : grown e e.
Proof. repeat split; auto. Qed.
Lemma grown_tok e s : grown e (with_tok e s).
Proof. repeat split; auto. Qed.
Lemma grown_trans a b c : grown a b -> grown b c -> grown a c.
Proof.
  intros ((A1 & A2 & A3) & A4 & A5 & A6) ((B1 & B2 & B3) & B4 & B5 & B6). split; [repeat split; congruence|]. split; [auto|]. split; [auto|].
  intros u. destruct (A6 u) as (? & ? & ?), (B6 u) as (? & ? & ?). repeat split; congruence.
Qed.

Lemma pop_one_grown P nd now s v s' : pop_one P nd now s v = Ok s' -> timers_logical (r_env s) -> NEVER < ttime (e_cur (r_env s)) < FOREVER -> grown (r_env s) (r_env s').
Proof.
  intros H Hl Hr. unfold pop_one in H. destruct (ev_trig v) as [tr|]; [|injection H as <-; apply grown_refl].
  cbv zeta in H. bind_inv H. rename x into s1.
  assert (G : grown (r_env s) (r_env s1)).
  { destruct (tg_timer (e_tr (r_env s) tr) && (0 <? tg_period (e_tr (r_env s) tr))) eqn:Et.
    - bind_inv E. injection E as <-. destruct x as [e' h]. cbn [r_env fst]. pose proof (sched_static _ _ _ _ _ _ _ _ E0) as Hst.
      apply andb_true_iff in Et. destruct Et as (Et & Ep). apply timer_effect in E0; [|exact Et|apply Hl, Et|lia|exact Hr].
      destruct E0 as (Hc & Hq). split; [exact Hc|]. destruct Hc as (C1 & _). destruct Hq as [Hq|(t & Hq & Hlt & _)]; unfold inserted in *; rewrite Hq.
      + split; [auto|]. split; [|exact Hst]. intros F w Hw. rewrite C1. rewrite Hq in Hw. apply F, Hw.
      + split; [intros w Hw; right; exact Hw|]. split; [|exact Hst]. intros F w Hw. rewrite C1. rewrite Hq in Hw. destruct Hw as [<-|Hw]; [exact Hlt|apply F, Hw].
    - unfold mark in E. destruct (_ <? INT_MAX); [|discriminate]. injection E as <-. apply grown_refl. }
  bind_inv H. bind_inv H. injection H as <-. cbn [rt_env r_env]. eapply grown_trans; [exact G|apply grown_tok].
Qed.
Lemma pop_all_grown P nd now : forall l s s', pop_all P nd now s l = Ok s' -> timers_logical (r_env s) ->
  (l <> [] -> NEVER < ttime (e_cur (r_env s)) < FOREVER) -> grown (r_env s) (r_env s').
Proof.
  induction l as [|v l IH]; intros s s' H Hl Hr; cbn in H; [injection H as <-; apply grown_refl|]. bind_inv H. specialize (Hr ltac:(discriminate)).
  pose proof (pop_one_grown _ _ _ _ _ _ E Hl Hr) as G. eapply grown_trans; [exact G|]. destruct G as ((C1 & _) & _ & _ & G). eapply IH; [exact H| |intros _; rewrite C1; exact Hr].
  intros u. destruct (G u) as (-> & _ & ->). apply Hl.
Qed.

(** *** One step *)
Lemma clear_env P s : r_env (start_time_step P s) = r_env s.
Proof. unfold start_time_step. destruct (e_started (r_env s)); reflexivity. Qed.

(** The tag chosen. *)
Definition target (kp : bool) (e : env) : env * tag :=
  let head := min_tag (e_q e) in
  let e1 := match head with None => if kp then e else set_stop e (bump (e_cur e)) | Some _ => e end in
  let t0 := match head with None => FOREVER_TAG | Some h => h end in
  (e1, if after_stop e1 t0 then e_stop e1 else t0).

Lemma target_spec kp s : sound s -> tag_lt (e_cur (r_env s)) (e_stop (r_env s)) -> in_range s ->
  let (e1, t) := target kp (r_env s) in
  e_q e1 = e_q (r_env s) /\ e_cur e1 = e_cur (r_env s) /\ e_tr e1 = e_tr (r_env s) /\ e_started e1 = e_started (r_env s) /\
  tag_le (e_stop e1) (e_stop (r_env s)) /\ tag_ok (e_stop e1) /\
  tag_lt (e_cur (r_env s)) t /\ tag_le t (e_stop e1) /\ tag_ok t /\ (forall v, In v (e_q (r_env s)) -> tag_le t (ev_tag v)) /\
  (t = e_stop e1 \/ exists v, In v (e_q (r_env s)) /\ ev_tag v = t).
Proof.
  intros S Hlt (Hq & Hm). unfold target. destruct (min_tag (e_q (r_env s))) as [h|] eqn:Eh.
  - destruct (min_tag_some _ _ Eh) as ((v & Hv & Ev) & Hall). destruct S as (A & B & C & D & F).
    assert (Hh : tag_lt (e_cur (r_env s)) h) by (rewrite <- Ev; apply A, Hv).
    destruct (after_stop (r_env s) h) eqn:Ea.
    + assert (Hs : tag_lt (e_stop (r_env s)) h) by (apply tag_not_le; rewrite <- after_stop_spec; congruence).
      repeat (split; [first [reflexivity|apply tag_le_refl|exact D|exact Hlt]|]). split; [|left; reflexivity].
      intros w Hw. apply tag_lt_le. eapply tag_lt_le_trans; [exact Hs|apply Hall, Hw].
    + apply after_stop_spec in Ea. repeat (split; [first [reflexivity|apply tag_le_refl|exact D|exact Hh|exact Ea|(rewrite <- Ev; apply Hq, Hv)|exact Hall]|]).
      right. exists v. auto.
  - apply min_tag_none in Eh. rewrite Eh.
    set (e1 := if kp then r_env s else set_stop (r_env s) (bump (e_cur (r_env s)))).
    assert (K : e_q e1 = [] /\ e_cur e1 = e_cur (r_env s) /\ e_tr e1 = e_tr (r_env s) /\ e_started e1 = e_started (r_env s) /\
       tag_le (e_stop e1) (e_stop (r_env s)) /\ tag_ok (e_stop e1) /\ tag_lt (e_cur (r_env s)) (e_stop e1)).
    { subst e1. destruct kp.
      - repeat (split; [first [exact Eh|reflexivity|apply tag_le_refl|apply S]|]). exact Hlt.
      - destruct (sound_stop s S Hm) as (S1 & H1). destruct (set_stop_spec (r_env s) (bump (e_cur (r_env s)))) as (E1 & E2 & E3 & E4 & E5 & E6 & E7).
        rewrite E1, E2, E3, E4. repeat (split; [first [exact Eh|reflexivity|exact E5|apply S1]|]). apply H1, Hlt. }
    destruct K as (K1 & K2 & K3 & K4 & K5 & K6 & K7).
    assert (Et : (if after_stop e1 FOREVER_TAG then e_stop e1 else FOREVER_TAG) = e_stop e1).
    { destruct (after_stop e1 FOREVER_TAG) eqn:Ea; [reflexivity|]. apply after_stop_spec in Ea. apply tag_le_antisym; [exact Ea|]. apply tag_forever_greatest, K6. }
    rewrite Et. repeat (split; [first [exact K1|exact K2|exact K3|exact K4|exact K5|exact K6|exact K7|apply tag_le_refl]|]). split; [intros v []|]. left; reflexivity.
Qed.

Lemma enter_spec P kp nd now s r : sound s -> tag_lt (e_cur (r_env s)) (e_stop (r_env s)) -> in_range s -> timers_logical (r_env s) ->
  enter P kp nd now s = Ok r ->
  exists s1 evs down, r = Some (s1, evs, down) /\ sound s1 /\
    let t := e_cur (r_env s1) in
    tag_lt (e_cur (r_env s)) t /\ tag_le (e_stop (r_env s1)) (e_stop (r_env s)) /\
    (forall v, In v (e_q (r_env s)) -> tag_le t (ev_tag v)) /\
    (t = e_stop (r_env s1) \/ exists v, In v (e_q (r_env s)) /\ ev_tag v = t) /\
    (forall v, In v evs <-> In v (e_q (r_env s)) /\ ev_tag v = t) /\
    (forall v, In v (e_q (r_env s)) -> ev_tag v <> t -> In v (e_q (r_env s1))) /\
    (down = true <-> t = e_stop (r_env s1)) /\
    (forall u, tg_timer (e_tr (r_env s1) u) = tg_timer (e_tr (r_env s) u) /\ tg_period (e_tr (r_env s1) u) = tg_period (e_tr (r_env s) u) /\ tg_phys (e_tr (r_env s1) u) = tg_phys (e_tr (r_env s) u)).
Proof.
  intros S Hlt Hr Htl H. pose proof (target_spec kp s S Hlt Hr) as T. unfold enter in H. cbv zeta in H. unfold target in T.
  set (e1 := match min_tag (e_q (r_env s)) with Some _ => r_env s | None => if kp then r_env s else set_stop (r_env s) (bump (e_cur (r_env s))) end) in *.
  set (t := if after_stop e1 _ then _ else _) in *. destruct T as (T1 & T2 & T3 & T4 & T5 & T6 & T7 & T8 & T9 & T10 & T11).
  assert (Ea : advance nd e1 t = Some (with_cur e1 t)).
  { unfold advance. rewrite T1, T2.
    assert (E0 : match min_tag (e_q (r_env s)) with Some h => 0 <? tag_compare t h | None => false end = false).
    { destruct (min_tag (e_q (r_env s))) as [h|] eqn:Eh; [|reflexivity]. destruct (min_tag_some _ _ Eh) as ((v & Hv & Ev) & _). specialize (T10 v Hv). rewrite Ev in T10.
      apply tag_compare_le in T10. lia. }
    rewrite E0, andb_false_r. apply tag_compare_lt in T7. rewrite T7. reflexivity. }
  rewrite Ea in H. bind_inv H. injection H as <-. destruct x as [s1 evs]. cbn [fst snd].
  unfold pop_events in E. cbv zeta in E. rewrite clear_env in E. cbn [rt_env r_env] in E. bind_inv E. injection E as <- <-. rename E0 into E.
  cbn [with_cur e_cur e_q] in E. rewrite T1 in E.
  set (s0 := rt_env _ _) in E.
  assert (Hnv : filter (at_tag t) (e_q (r_env s)) <> [] -> NEVER < ttime t < FOREVER).
  { intros Hne. destruct (filter (at_tag t) (e_q (r_env s))) as [|v l] eqn:Ef; [congruence|]. assert (Hin : In v (filter (at_tag t) (e_q (r_env s)))) by (rewrite Ef; left; reflexivity).
    apply filter_In in Hin. destruct Hin as (Hin & Hv). apply at_tag_spec in Hv. destruct Hr as (Hr & _). destruct (Hr v Hin) as (_ & K). rewrite Hv in K. exact K. }
  assert (Htl0 : timers_logical (r_env s0)).
  { intros u. subst s0. cbn. rewrite T3. apply Htl. }
  pose proof (pop_all_grown _ _ _ _ _ _ E Htl0 Hnv) as ((G1 & G2 & G3) & G4 & G5 & G6).
  assert (F0 : future_queue (r_env s0)).
  { intros v Hv. subst s0. cbn in Hv |- *. apply filter_In in Hv. destruct Hv as (Hv & Hne). specialize (T10 v Hv). apply tag_le_lt_or_eq in T10. destruct T10 as [K|K]; [exact K|].
    symmetry in K. apply at_tag_spec in K. rewrite K in Hne. discriminate. }
  change (e_cur (r_env s0)) with t in G1. change (e_stop (r_env s0)) with (e_stop e1) in G2. change (e_started (r_env s0)) with (e_started e1) in G3.
  eexists _, _, _. split; [reflexivity|]. cbv zeta. rewrite G1, G2.
  change (e_cur (with_cur e1 t)) with t. change (e_stop (with_cur e1 t)) with (e_stop e1).
  split; [|split; [exact T7|split; [exact T5|split; [exact T10|split; [exact T11|split; [|split; [|split]]]]]]].
  - split; [apply G5, F0|]. rewrite G1, G2, G3, T4. split; [exact T8|]. split; [exact T9|]. split; [exact T6|]. apply S.
  - intros v. cbn [with_cur e_q]. rewrite T1, filter_In, at_tag_spec. reflexivity.
  - intros v Hv Hne. apply G4. subst s0. cbn. apply filter_In. split; [exact Hv|]. destruct (at_tag t v) eqn:K; [|reflexivity]. apply at_tag_spec in K. contradiction.
  - cbv beta. split.
    + intros K. apply Z.leb_le, tag_compare_ge in K. apply tag_le_antisym; assumption.
    + intros ->. rewrite (proj2 (tag_compare_eq _ _) eq_refl). reflexivity.
  - intros u. destruct (G6 u) as (-> & -> & ->). subst s0. cbn. rewrite T3. auto.
Qed.

(** Schedule calls keep static data. *)
Lemma acts_static P nd : forall l s s', acts P nd s l = Ok s' ->
  forall u, tg_timer (e_tr (r_env s') u) = tg_timer (e_tr (r_env s) u) /\ tg_period (e_tr (r_env s') u) = tg_period (e_tr (r_env s) u) /\ tg_phys (e_tr (r_env s') u) = tg_phys (e_tr (r_env s) u).
Proof.
  induction l as [|a l IH]; intros s s' H u; cbn in H; [injection H as <-; auto|]. bind_inv H. destruct (IH _ _ H u) as (-> & -> & ->).
  destruct a as [now tr extra tok|f|]; cbn [act] in E.
  - bind_inv E. injection E as <-. destruct x0 as [e' h]. apply (sched_static _ _ _ _ _ _ _ _ E0).
  - unfold mark in E. destruct (_ <? INT_MAX); [|discriminate]. injection E as <-. auto.
  - injection E as <-. cbn [rt_env r_env]. unfold request_stop. destruct (set_stop_spec (r_env s) (bump (e_cur (r_env s)))) as (_ & _ & -> & _). auto.
Qed.
Lemma timers_logical_ext e e' : (forall u, tg_timer (e_tr e' u) = tg_timer (e_tr e u) /\ tg_period (e_tr e' u) = tg_period (e_tr e u) /\ tg_phys (e_tr e' u) = tg_phys (e_tr e u)) ->
  timers_logical e -> timers_logical e'.
Proof. intros H Ht u. destruct (H u) as (-> & _ & ->). apply Ht. Qed.

Lemma continues_spec s : sound s -> continues s = true <-> tag_lt (e_cur (r_env s)) (e_stop (r_env s)).
Proof.
  intros S. unfold continues. rewrite negb_true_iff, Z.leb_gt, <- tag_not_le, <- tag_compare_ge. lia.
Qed.

(** *** The whole loop *)
Definition good_line (x : line) : Prop := forall v, In v (l_events x) -> ev_tag v = l_tag x.
Definition loop_post (s : rt) (r : option (rt * list line * bool)) : Prop :=
  exists s' tr b, r = Some (s', tr, b) /\ sound s' /\ increasing (e_cur (r_env s)) tr /\ Forall good_line tr /\
    tag_le (e_stop (r_env s')) (e_stop (r_env s)) /\ tag_le (e_cur (r_env s)) (e_cur (r_env s')) /\
    (if b then tag_lt (e_cur (r_env s')) (e_stop (r_env s')) /\ Forall (fun x => l_down x = false) tr
     else exists pre x, tr = pre ++ [x] /\ l_down x = true /\ l_tag x = e_stop (r_env s') /\ e_cur (r_env s') = e_stop (r_env s') /\ Forall (fun y => l_down y = false) pre) /\
    (forall x, In x tr -> tag_le (l_tag x) (e_cur (r_env s'))).
Lemma loop_spec P kp nd : forall steps s r, sound s -> tag_lt (e_cur (r_env s)) (e_stop (r_env s)) -> timers_logical (r_env s) -> loop_ok P kp nd s steps ->
  loop P kp nd s steps = Ok r -> loop_post s r.
Proof.
  induction steps as [|[now l|l] steps IH]; intros s r S Hlt Htl Hok H; cbn [loop] in H.
  - injection H as <-. exists s, [], true. split; [reflexivity|]. split; [exact S|]. split; [exact I|]. split; [constructor|]. split; [apply tag_le_refl|]. split; [apply tag_le_refl|]. split; [split; [exact Hlt|constructor]|intros x []].
  - bind_inv H. destruct Hok as (Hrg & Hok). destruct (enter_spec _ _ _ _ _ _ S Hlt Hrg Htl E) as (s1 & evs & down & -> & S1 & A1 & A2 & A3 & A4 & A5 & A6 & A7 & A8).
    bind_inv H. rename x into s2. destruct (Hok _ _ _ E) as (Hacts & Hok2). destruct (acts_sound _ _ _ _ _ S1 Hacts E0) as (S2 & B1 & B2 & B3 & B4).
    assert (Hg : good_line (mkLine (e_cur (r_env s1)) evs down)) by (intros v Hv; cbn in *; apply A5 in Hv; apply Hv).
    destruct (continues s2) eqn:Ec.
    + apply (continues_spec _ S2) in Ec. bind_inv H. injection H as <-.
      assert (Htl2 : timers_logical (r_env s2)).
      { eapply timers_logical_ext; [|exact Htl]. intros u. destruct (acts_static _ _ _ _ _ E0 u) as (-> & -> & ->). apply A8. }
      destruct (IH s2 x S2 Ec Htl2 (Hok2 _ E0) E1) as (s3 & tr & b & -> & S3 & C1 & C2 & C3 & C6 & C4 & C5).
      assert (Hd : down = false).
      { destruct down; [|reflexivity]. destruct A7 as (A7 & _). specialize (A7 eq_refl). specialize (B4 A7). rewrite B1, B4 in Ec. rewrite A7 in Ec. destruct (tag_lt_irrefl _ Ec). }
      subst down. eexists _, _, _. split; [reflexivity|]. split; [exact S3|]. split; [cbn [increasing l_tag]; split; [exact A1|]; rewrite B1 in C1; exact C1|].
      split; [constructor; assumption|]. split; [eapply tag_le_trans; [exact C3|]; eapply tag_le_trans; [exact B2|exact A2]|].
      split; [eapply tag_le_trans; [apply tag_lt_le, A1|]; rewrite <- B1; exact C6|]. split.
      * destruct b; [destruct C4 as (C4 & C7); split; [exact C4|constructor; [reflexivity|exact C7]]|].
        destruct C4 as (pre & y & -> & D1 & D2 & D3 & D4). eexists (_ :: pre), y. split; [reflexivity|]. repeat (split; [assumption|]). constructor; [reflexivity|exact D4].
      * intros x [<-|Hx]; [|apply C5, Hx]. cbn [l_tag]. rewrite <- B1. exact C6.
    + assert (Hge : e_cur (r_env s2) = e_stop (r_env s2)).
      { apply tag_le_antisym; [apply S2|]. apply tag_not_lt. intros K. apply (continues_spec _ S2) in K. congruence. }
      injection H as <-.
      assert (Hd : e_cur (r_env s1) = e_stop (r_env s1)).
      { destruct S1 as (_ & S1 & _). apply tag_le_lt_or_eq in S1. destruct S1 as [K1|K1]; [|exact K1].
        specialize (B3 K1). rewrite Hge in B3. destruct (tag_lt_irrefl _ B3). }
      assert (Hdn : down = true) by (apply A7, Hd). subst down.
      eexists s2, _, false. split; [reflexivity|]. split; [exact S2|]. split; [cbn; auto|]. split; [constructor; [exact Hg|constructor]|]. split; [eapply tag_le_trans; [exact B2|exact A2]|].
      split; [rewrite B1; apply tag_lt_le, A1|].
      split; [exists [], (mkLine (e_cur (r_env s1)) evs true); cbn [l_down l_tag]; repeat split; auto; congruence|].
      intros x [<-|[]]. cbn [l_tag]. rewrite <- B1. apply tag_le_refl.
  - destruct Hok as (Hrg & Hacts & Hok). revert H Hacts Hok. cbv zeta.
    set (e1 := match min_tag (e_q (r_env s)) with Some _ => r_env s | None => _ end). intros H Hacts Hok. bind_inv H. rename x into s1.
    assert (K : sound (rt_env s e1) /\ e_cur e1 = e_cur (r_env s) /\ tag_le (e_stop e1) (e_stop (r_env s)) /\ tag_lt (e_cur e1) (e_stop e1) /\ e_tr e1 = e_tr (r_env s)).
    { assert (K0 : sound (rt_env s (r_env s)) /\ e_cur (r_env s) = e_cur (r_env s) /\ tag_le (e_stop (r_env s)) (e_stop (r_env s)) /\ tag_lt (e_cur (r_env s)) (e_stop (r_env s)) /\ e_tr (r_env s) = e_tr (r_env s))
        by (split; [exact S|]; split; [reflexivity|]; split; [apply tag_le_refl|]; auto).
      subst e1. destruct (min_tag (e_q (r_env s))); [exact K0|]. destruct kp; [exact K0|]. destruct Hrg as (_ & Hm). destruct (sound_stop s S Hm) as (S1 & H1).
      destruct (set_stop_spec (r_env s) (bump (e_cur (r_env s)))) as (E1 & E2 & E3 & E4 & E5 & E6 & E7). split; [exact S1|]. rewrite E2, E3. auto. }
    destruct K as (K1 & K2 & K3 & K4 & K5). destruct (acts_sound _ _ _ _ _ K1 Hacts E) as (S2 & B1 & B2 & B3 & B4). cbn [rt_env r_env] in B1, B2, B3, B4. specialize (B3 K4).
    assert (Htl2 : timers_logical (r_env s1)).
    { intros u. destruct (acts_static _ _ _ _ _ E u) as (-> & _ & ->). cbn [rt_env r_env]. rewrite K5. apply Htl. }
    destruct (IH s1 r S2 B3 Htl2 (Hok _ eq_refl) H) as (s3 & tr & b & -> & S3 & C1 & C2 & C3 & C6 & C4 & C5).
    rewrite B1, K2 in C1, C6. eexists _, _, _. split; [reflexivity|]. split; [exact S3|]. split; [exact C1|]. split; [exact C2|].
    split; [eapply tag_le_trans; [exact C3|]; eapply tag_le_trans; [exact B2|exact K3]|]. split; [exact C6|]. split; [exact C4|exact C5].
Qed.

(** *** Presence *)
Definition recorded (P : prog) (s : rt) : Prop :=
  length (r_abb s) = Nat.min (r_cnt s) (length (p_all P)) /\
  forall f, In f (p_all P) -> r_pres s f = true -> In f (r_abb s) \/ (length (p_all P) < r_cnt s)%nat.

Lemma clear_spec l : forall p f, clear l p f = if in_dec Nat.eq_dec f l then false else p f.
Proof.
  unfold clear. induction l as [|a l IH]; intros p f; [reflexivity|]. cbn [fold_left]. rewrite IH.
  destruct (in_dec Nat.eq_dec f l) as [i|n], (in_dec Nat.eq_dec f (a :: l)) as [j|m]; try reflexivity.
  - destruct m; right; exact i.
  - destruct j as [->|j]; [apply upd_eq|contradiction].
  - apply upd_neq. intros ->. apply m. left; reflexivity.
Qed.
Lemma mark_recorded P s f s' : recorded P s -> mark P s f = Ok s' -> recorded P s' /\ (forall g, r_pres s' g = true <-> r_pres s g = true \/ g = f) /\ r_env s' = r_env s.
Proof.
  intros (A & B) H. unfold mark in H. destruct (_ <? INT_MAX); [|discriminate]. injection H as <-. unfold recorded. cbn [r_abb r_cnt r_pres r_env].
  assert (Hp : forall g, upd (r_pres s) f true g = true <-> r_pres s g = true \/ g = f).
  { intros g. destruct (Nat.eq_dec g f) as [->|N]; [rewrite upd_eq; tauto|rewrite upd_neq by congruence; tauto]. }
  split; [|split; [exact Hp|reflexivity]]. destruct (r_cnt s <? length (p_all P))%nat eqn:E.
  - apply Nat.ltb_lt in E. split; [rewrite app_length; cbn [length]; lia|]. intros g Hg Hpr. apply Hp in Hpr. rewrite in_app_iff. cbn [In]. destruct Hpr as [Hpr| ->]; [|auto]. destruct (B g Hg Hpr); [auto|lia].
  - apply Nat.ltb_ge in E. split; [lia|]. intros g Hg _. right. lia.
Qed.
Lemma start_step_absent P s : recorded P s -> e_started (r_env s) = true ->
  recorded P (start_time_step P s) /\ forall f, In f (p_all P) -> r_pres (start_time_step P s) f = false.
Proof.
  intros (A & B) Hs. unfold start_time_step. rewrite Hs.
  assert (Hall : forall f, In f (p_all P) -> clear (if (length (p_all P) <? r_cnt s)%nat then p_all P else firstn (r_cnt s) (r_abb s)) (r_pres s) f = false).
  { intros f Hf. rewrite clear_spec. destruct (in_dec _ f _) as [_|N]; [reflexivity|]. destruct (r_pres s f) eqn:Ep; [|reflexivity]. exfalso. apply N. destruct (_ <? _)%nat eqn:E; [exact Hf|].
    apply Nat.ltb_ge in E. destruct (B f Hf Ep) as [K|K]; [|lia]. rewrite firstn_all2 by lia. exact K. }
  split; [|exact Hall]. split; [reflexivity|]. cbn [r_pres r_abb r_cnt]. intros f Hf Hp. rewrite Hall in Hp by exact Hf. discriminate.
Qed.

Lemma apart_ext P e e' : (forall u, tg_timer (e_tr e' u) = tg_timer (e_tr e u) /\ tg_period (e_tr e' u) = tg_period (e_tr e u) /\ tg_phys (e_tr e' u) = tg_phys (e_tr e u)) ->
  timer_fields_apart P e -> timer_fields_apart P e'.
Proof. intros H Ht u. destruct (H u) as (-> & -> & _). apply Ht. Qed.

Definition shows (P : prog) (s s' : rt) (evs : list event) : Prop :=
  recorded P s' /\ forall f, In f (p_all P) -> r_pres s' f = true <-> r_pres s f = true \/ triggered_field P evs f.
Lemma pop_one_shows P nd now s v s' : recorded P s -> timer_fields_apart P (r_env s) -> pop_one P nd now s v = Ok s' ->
  shows P s s' [v] /\
  (forall u, tg_timer (e_tr (r_env s') u) = tg_timer (e_tr (r_env s) u) /\ tg_period (e_tr (r_env s') u) = tg_period (e_tr (r_env s) u) /\ tg_phys (e_tr (r_env s') u) = tg_phys (e_tr (r_env s) u)).
Proof.
  intros R Hap H. unfold pop_one in H. destruct (ev_trig v) as [tr|] eqn:Ev.
  2:{ injection H as <-. split; [|auto]. split; [exact R|]. intros f _. split; [auto|]. intros [K|(w & tr & [<-|[]] & Q & _)]; [exact K|congruence]. }
  cbv zeta in H. bind_inv H. rename x into s1. bind_inv H. bind_inv H. injection H as <-. cbn [rt_env r_env]. unfold shows, recorded. cbn [rt_env r_abb r_cnt r_pres with_tok e_tr].
  assert (Htf : forall f, triggered_field P [v] f <-> f = p_field P tr).
  { intros f. split; [intros (w & tr' & [<-|[]] & Q & <-); congruence|intros ->; exists v, tr; repeat split; auto; left; reflexivity]. }
  destruct (tg_timer (e_tr (r_env s) tr) && (0 <? tg_period (e_tr (r_env s) tr))) eqn:Et.
  - bind_inv E. injection E as <-. destruct x1 as [e' h]. cbn [r_env fst r_abb r_cnt r_pres]. pose proof (sched_static _ _ _ _ _ _ _ _ E2) as Hst. apply andb_true_iff in Et. destruct Et as (Et & Ep).
    assert (Hn : ~ In (p_field P tr) (p_all P)) by (apply Hap; [exact Et|lia]). split; [|exact Hst]. destruct R as (R1 & R2). split; [split; [exact R1|]|].
    + intros f Hf. destruct (Nat.eq_dec f (p_field P tr)) as [->|N]; [contradiction|]. rewrite upd_neq by congruence. apply R2, Hf.
    + intros f Hf. rewrite Htf. destruct (Nat.eq_dec f (p_field P tr)) as [->|N]; [contradiction|]. rewrite upd_neq by congruence. tauto.
  - destruct (mark_recorded _ _ _ _ R E) as (R' & Hp & ->). split; [|auto]. split; [exact R'|]. intros f Hf. rewrite Hp, Htf. reflexivity.
Qed.
Lemma pop_all_shows P nd now : forall l s s', recorded P s -> timer_fields_apart P (r_env s) -> pop_all P nd now s l = Ok s' -> shows P s s' l.
Proof.
  induction l as [|v l IH]; intros s s' R Hap H; cbn in H.
  - injection H as <-. split; [exact R|]. intros f _. split; [auto|]. intros [K|(w & tr & [] & _)]. exact K.
  - bind_inv H. destruct (pop_one_shows _ _ _ _ _ _ R Hap E) as ((R1 & Hp1) & Hst). destruct (IH x s' R1 (apart_ext _ _ _ Hst Hap) H) as (R2 & Hp2). split; [exact R2|].
    intros f Hf. rewrite Hp2, Hp1 by exact Hf. unfold triggered_field. split.
    + intros [[K|(w & tr & [<-|[]] & Q)]|(w & tr & Hw & Q)]; [auto|right; exists v, tr; split; [left; reflexivity|exact Q]|right; exists w, tr; split; [right; exact Hw|exact Q]].
    + intros [K|(w & tr & [<-|Hw] & Q)]; [auto|left; right; exists v, tr; split; [left; reflexivity|exact Q]|right; exists w, tr; auto].
Qed.

Lemma enter_shows P kp nd now s s1 evs down : recorded P s -> e_started (r_env s) = true -> timer_fields_apart P (r_env s) ->
  enter P kp nd now s = Ok (Some (s1, evs, down)) ->
  recorded P s1 /\ forall f, In f (p_all P) -> r_pres s1 f = true <-> triggered_field P evs f.
Proof.
  intros R Hs Hap H. unfold enter in H. cbv zeta in H. set (e1 := match min_tag _ with Some _ => _ | None => _ end) in H.
  assert (Es : e_started e1 = true /\ e_tr e1 = e_tr (r_env s)).
  { subst e1. destruct (min_tag _); [auto|]. destruct kp; [auto|]. destruct (set_stop_spec (r_env s) (bump (e_cur (r_env s)))) as (_ & _ & -> & -> & _). auto. }
  destruct Es as (Es & Et). destruct (advance nd e1 _) as [e2|] eqn:Ea; [|discriminate].
  assert (E2 : e_started e2 = true /\ e_tr e2 = e_tr (r_env s)).
  { unfold advance in Ea. destruct (negb nd && _); [discriminate|]. destruct (_ <? 0); [|discriminate]. injection Ea as <-. auto. }
  bind_inv H. injection H as <- <- _. unfold pop_events in E. cbv zeta in E. bind_inv E. injection E as <-. cbn [fst snd].
  assert (R0 : recorded P (rt_env s e2)) by exact R. destruct (start_step_absent P _ R0 (proj1 E2)) as (R1 & Habs).
  eapply pop_all_shows in E0; [|exact R1|].
  - destruct E0 as (R2 & Hp). split; [exact R2|]. intros f Hf. rewrite Hp by exact Hf. cbn [rt_env r_pres]. rewrite Habs by exact Hf. split; [intros [K|K]; [discriminate|exact K]|auto].
  - rewrite clear_env. cbn [rt_env r_env]. intros u. cbn. rewrite (proj2 E2). apply Hap.
Qed.
Lemma acts_shows P nd : forall l s s', recorded P s -> acts P nd s l = Ok s' ->
  recorded P s' /\ forall f, r_pres s' f = true <-> r_pres s f = true \/ In (ASet f) l.
Proof.
  induction l as [|a l IH]; intros s s' R H; cbn in H.
  - injection H as <-. split; [exact R|]. intros f. cbn. tauto.
  - bind_inv H. assert (K : recorded P x /\ forall f, r_pres x f = true <-> r_pres s f = true \/ a = ASet f).
    { destruct a as [now tr extra tok|g|]; cbn [act] in E.
      - bind_inv E. injection E as <-. split; [exact R|]. intros f. cbn. split; [auto|intros [?|?]; [auto|discriminate]].
      - destruct (mark_recorded _ _ _ _ R E) as (R' & Hp & _). split; [exact R'|]. intros f. rewrite Hp. split; (intros [Q|Q]; [left; exact Q|right; congruence]).
      - injection E as <-. split; [exact R|]. intros f. cbn. split; [auto|intros [?|?]; [auto|discriminate]]. }
    destruct K as (R1 & K). destruct (IH x s' R1 H) as (R2 & Hp). split; [exact R2|]. intros f. rewrite Hp, K. cbn [In]. tauto.
Qed.

Lemma acts_started P nd l : forall s s', acts P nd s l = Ok s' -> e_started (r_env s') = e_started (r_env s).
Proof.
  induction l as [|a l IH]; intros s s' H; cbn in H; [injection H as <-; reflexivity|]. bind_inv H. rewrite (IH _ _ H). destruct a; cbn [act] in E.
  - bind_inv E. injection E as <-. destruct x0 as [e' h]. apply sched_call in E0. destruct E0 as ((_ & _ & E0) & _). exact E0.
  - unfold mark in E. destruct (_ <? INT_MAX); [|discriminate]. injection E as <-. reflexivity.
  - injection E as <-. cbn [rt_env r_env]. unfold request_stop. apply (set_stop_spec (r_env s) (bump (e_cur (r_env s)))).
Qed.
Lemma pop_all_static P nd now : forall l s s', pop_all P nd now s l = Ok s' ->
  e_started (r_env s') = e_started (r_env s) /\
  forall u, tg_timer (e_tr (r_env s') u) = tg_timer (e_tr (r_env s) u) /\ tg_period (e_tr (r_env s') u) = tg_period (e_tr (r_env s) u) /\ tg_phys (e_tr (r_env s') u) = tg_phys (e_tr (r_env s) u).
Proof.
  induction l as [|v l IH]; intros s s' H; cbn in H; [injection H as <-; auto|]. bind_inv H. destruct (IH _ _ H) as (A & B). clear IH H.
  assert (K : e_started (r_env x) = e_started (r_env s) /\
    forall u, tg_timer (e_tr (r_env x) u) = tg_timer (e_tr (r_env s) u) /\ tg_period (e_tr (r_env x) u) = tg_period (e_tr (r_env s) u) /\ tg_phys (e_tr (r_env x) u) = tg_phys (e_tr (r_env s) u)).
  { unfold pop_one in E. destruct (ev_trig v) as [tr|]; [|injection E as <-; auto]. cbv zeta in E. bind_inv E. bind_inv E. bind_inv E. injection E as <-. cbn [rt_env r_env with_tok e_started e_tr].
    destruct (_ && _).
    - bind_inv E0. injection E0 as <-. match goal with K : sched _ _ _ _ _ _ = Ok ?y |- _ => destruct y as [e1 h]; rename K into E3 end. cbn [r_env fst]. split; [apply sched_call in E3; destruct E3 as ((_ & _ & E3) & _); exact E3|apply (sched_static _ _ _ _ _ _ _ _ E3)].
    - unfold mark in E0. destruct (_ <? INT_MAX); [|discriminate]. injection E0 as <-. auto. }
  destruct K as (K1 & K2). split; [congruence|]. intros u. destruct (B u) as (-> & -> & ->). apply K2.
Qed.
Lemma enter_static P kp nd now s s1 evs down : enter P kp nd now s = Ok (Some (s1, evs, down)) ->
  e_started (r_env s1) = e_started (r_env s) /\
  forall u, tg_timer (e_tr (r_env s1) u) = tg_timer (e_tr (r_env s) u) /\ tg_period (e_tr (r_env s1) u) = tg_period (e_tr (r_env s) u) /\ tg_phys (e_tr (r_env s1) u) = tg_phys (e_tr (r_env s) u).
Proof.
  intros H. unfold enter in H. cbv zeta in H. set (e1 := match min_tag _ with Some _ => _ | None => _ end) in H.
  assert (Es : e_started e1 = e_started (r_env s) /\ e_tr e1 = e_tr (r_env s)).
  { subst e1. destruct (min_tag _); [auto|]. destruct kp; [auto|]. destruct (set_stop_spec (r_env s) (bump (e_cur (r_env s)))) as (_ & _ & -> & -> & _). auto. }
  destruct Es as (Es & Et). destruct (advance nd e1 _) as [e2|] eqn:Ea; [|discriminate].
  assert (E2 : e_started e2 = e_started (r_env s) /\ e_tr e2 = e_tr (r_env s)).
  { unfold advance in Ea. destruct (negb nd && _); [discriminate|]. destruct (_ <? 0); [|discriminate]. injection Ea as <-. auto. }
  bind_inv H. injection H as <- <- _. unfold pop_events in E. cbv zeta in E. bind_inv E. injection E as <-. cbn [fst snd].
  apply pop_all_static in E0. rewrite clear_env in E0. cbn [rt_env r_env with_q e_started e_tr] in E0. destruct E2 as (E2 & E3). rewrite E2, E3 in E0. exact E0.
Qed.
Lemma reach_inv P kp nd s : reach P kp nd s -> recorded P s /\ e_started (r_env s) = true /\ timer_fields_apart P (r_env s).
Proof.
  induction 1 as [e He Hap|s l s' H (IH1 & IH2 & IH3) Ha|now s s' evs down H (IH1 & IH2 & IH3) He].
  - split; [|auto]. split; [reflexivity|]. cbn. discriminate.
  - split; [apply (acts_shows _ _ _ _ _ IH1 Ha)|]. split; [rewrite (acts_started _ _ _ _ _ Ha); exact IH2|]. eapply apart_ext; [apply (acts_static _ _ _ _ _ Ha)|exact IH3].
  - destruct (enter_static _ _ _ _ _ _ _ _ He) as (A & B). split; [apply (enter_shows _ _ _ _ _ _ _ _ IH1 IH2 IH3 He)|]. split; [congruence|]. eapply apart_ext; [exact B|exact IH3].
Qed.

(** *** Start *)
Definition untouched (e e' : env) : Prop := e_cur e' = e_cur e /\ e_stop e' = e_stop e /\ e_tr e' = e_tr e.
Lemma init_timers_spec : forall l e e', init_timers e l = Ok e' ->
  (forall tr, In tr l -> 0 <= tg_offset (e_tr e tr) /\ 0 <= tg_period (e_tr e tr)) ->
  untouched e e' /\ (future_queue e -> tmicro (e_cur e) = 0 -> future_queue e').
Proof.
  induction l as [|tr l IH]; intros e e' H Hw; cbn in H; [injection H as <-; split; [repeat split|auto]|]. bind_inv H. rename x into e1.
  assert (K : untouched e e1 /\ (future_queue e -> tmicro (e_cur e) = 0 -> future_queue e1)).
  { unfold init_timer in E. cbv zeta in E. destruct (_ && _) eqn:Ez; [injection E as <-; split; [repeat split|auto]|]. bind_inv E. injection E as <-.
    destruct (after_stop e (mkTag x 0)); [split; [repeat split|auto]|]. split; [repeat split|]. intros F Hm v [<-|Hv]; [|apply F, Hv]. cbn [insert_ev with_q e_cur ev_tag].
    unfold c_add64 in E0. destruct (in_int64b _); [|discriminate]. injection E0 as <-. destruct (Hw tr (or_introl eq_refl)). left. cbn [ttime]. destruct (tg_offset (e_tr e tr) =? 0) eqn:E1; lia. }
  destruct K as ((K1 & K2 & K3) & K4). destruct (IH e1 e' H) as ((L1 & L2 & L3) & L4).
  - intros u Hu. rewrite K3. apply Hw. right; exact Hu.
  - split; [repeat split; congruence|]. intros F Hm. apply L4; [auto|congruence].
Qed.

Definition main_post (start : Z) (r : option (rt * list line * bool)) : Prop :=
  exists s' tr b, r = Some (s', tr, b) /\ sound s' /\
    (exists x rest, tr = x :: rest /\ l_tag x = mkTag start 0 /\ increasing (mkTag start 0) rest) /\ Forall good_line tr /\
    (if b then tag_lt (e_cur (r_env s')) (e_stop (r_env s')) /\ Forall (fun x => l_down x = false) tr
     else exists pre x, tr = pre ++ [x] /\ l_down x = true /\ l_tag x = e_stop (r_env s') /\ Forall (fun y => l_down y = false) pre) /\
    (forall x, In x tr -> tag_le (l_tag x) (e_stop (r_env s'))).
Lemma main_spec P kp nd e start duration l0 steps r : main_ok P kp nd e start duration l0 steps -> main P kp nd e start duration l0 steps = Ok r -> main_post start r.
Proof.
  intros (Hq & Hst & Htl & Hw & Hrun) H. unfold main in H. bind_inv H. rename x into e1. bind_inv H. rename x into e2. cbv zeta in H. bind_inv H. rename x into s.
  destruct (Hrun e1 e2 eq_refl E0) as (Hacts & Hloop). clear Hrun. specialize (Hloop s E1).
  assert (K : e_cur e1 = mkTag start 0 /\ e_q e1 = [] /\ e_tr e1 = e_tr e /\ tag_le (e_cur e1) (e_stop e1) /\ tag_ok (e_stop e1)).
  { unfold init_tags in E. destruct (0 <=? duration) eqn:Ed.
    - unfold c_add64 in E. destruct (in_int64b (start + duration)) eqn:Ei; [|discriminate]. cbn [bind] in E. injection E as <-. cbn. repeat (split; [first [reflexivity|assumption]|]). split; [unfold tag_le; cbn; lia|].
      apply in_int64b_spec in Ei. split; cbn; [exact Ei|unfold in_uint32, UINT_MAX; lia].
    - cbn [bind] in E. injection E as <-. cbn. repeat (split; [first [reflexivity|assumption]|]). split; [unfold tag_le, FOREVER_TAG; cbn; lia|]. unfold FOREVER_TAG. tag_consts; cbn; lia. }
  destruct K as (K1 & K2 & K3 & K4 & K5). destruct (init_timers_spec _ _ _ E0) as ((L1 & L2 & L3) & L4).
  { intros tr Htr. rewrite K3. apply Hw, Htr. }
  assert (F1 : future_queue e1) by (intros v Hv; rewrite K2 in Hv; destruct Hv). specialize (L4 F1 ltac:(rewrite K1; reflexivity)).
  assert (S0 : sound (mkRt (start_exec e2) (fun _ => false) [] 0)).
  { split; [exact L4|]. cbn. rewrite L1, L2. split; [exact K4|]. split; [rewrite K1; tag_consts; cbn; lia|]. split; [exact K5|reflexivity]. }
  destruct (acts_sound _ _ _ _ _ S0 Hacts E1) as (S1 & B1 & B2 & B3 & B4). cbn [r_env start_exec e_cur e_stop] in B1, B2, B3, B4. rewrite L1, K1 in *.
  assert (Hd : (0 <=? tag_compare (mkTag start 0) (e_stop e2)) = true <-> mkTag start 0 = e_stop e2).
  { rewrite Z.leb_le, tag_compare_ge. split; [intros Q; apply tag_le_antisym; [rewrite L2; exact K4|exact Q]|intros ->; apply tag_le_refl]. }
  set (d := 0 <=? tag_compare (mkTag start 0) (e_stop e2)) in *.
  assert (Hg : good_line (mkLine (mkTag start 0) [] d)) by (intros v []).
  destruct (continues s) eqn:Ec.
  - apply (continues_spec _ S1) in Ec. bind_inv H. injection H as <-.
    assert (Htl1 : timers_logical (r_env s)).
    { intros u. destruct (acts_static _ _ _ _ _ E1 u) as (-> & _ & ->). cbn. rewrite L3, K3. apply Htl. }
    assert (Hdf : d = false).
    { destruct d; [|reflexivity]. destruct Hd as (Hd & _). specialize (B4 (Hd eq_refl)). rewrite B1, B4, <- (Hd eq_refl) in Ec. destruct (tag_lt_irrefl _ Ec). }
    destruct (loop_spec _ _ _ _ _ _ S1 Ec Htl1 Hloop E2) as (s3 & tr & b & -> & S3 & C1 & C2 & C3 & C6 & C4 & C5).
    rewrite B1 in C1, C6. eexists _, _, _. split; [reflexivity|]. split; [exact S3|]. split; [eexists _, _; split; [reflexivity|split; [reflexivity|exact C1]]|]. split; [constructor; assumption|]. split.
    + destruct b; [destruct C4 as (C4 & C7); split; [exact C4|constructor; [exact Hdf|exact C7]]|]. destruct C4 as (pre & y & -> & D1 & D2 & D3 & D4). eexists (_ :: pre), y. repeat (split; [first [reflexivity|assumption]|]).
      constructor; [exact Hdf|exact D4].
    + assert (Hs3 : tag_le (e_cur (r_env s3)) (e_stop (r_env s3))) by apply S3. intros x [<-|Hx]; [cbn [l_tag]; eapply tag_le_trans; [exact C6|exact Hs3]|]. eapply tag_le_trans; [apply C5, Hx|exact Hs3].
  - injection H as <-. assert (Hge : e_cur (r_env s) = e_stop (r_env s)).
    { apply tag_le_antisym; [apply S1|]. apply tag_not_lt. intros Q. apply (continues_spec _ S1) in Q. congruence. }
    assert (Hdt : mkTag start 0 = e_stop e2).
    { rewrite L2. apply tag_le_lt_or_eq in K4. destruct K4 as [Q|Q]; [|exact Q]. rewrite <- L2 in Q. specialize (B3 Q). rewrite Hge in B3. destruct (tag_lt_irrefl _ B3). }
    eexists s, _, false. split; [reflexivity|]. split; [exact S1|]. split; [eexists _, _; split; [reflexivity|split; [reflexivity|exact I]]|]. split; [constructor; [exact Hg|constructor]|]. split.
    + eexists [], _. split; [reflexivity|]. cbn [l_down l_tag]. split; [apply Hd, Hdt|]. split; [congruence|constructor].
    + intros x [<-|[]]. cbn [l_tag]. rewrite <- Hge, B1. apply tag_le_refl.
Qed.

(** *** No event is lost *)
Lemma revalued_keys e e' tr t tok : revalued e e' tr t tok -> keys (e_q e') = keys (e_q e).
Proof. intros (a & x & b & E1 & E2 & E3). rewrite E1, E3. unfold keys. rewrite !map_app. cbn. rewrite E2. reflexivity. Qed.
Lemma acts_keys P nd : forall l s s', sound s -> acts_ok P nd s l -> acts P nd s l = Ok s' -> forall k, In k (keys (e_q (r_env s))) -> In k (keys (e_q (r_env s'))).
Proof.
  induction l as [|a l IH]; intros s s' S Hok H k Hk; cbn in H; [injection H as <-; exact Hk|]. bind_inv H. destruct Hok as (H1 & H2).
  destruct (act_sound _ _ _ _ _ S H1 E) as (S1 & _). apply (IH x s' S1 (H2 x E) H). destruct a as [now tr extra tok|f|]; cbn [act act_ok] in *.
  - bind_inv E. injection E as <-. destruct x0 as [e' h]. cbn [rt_env r_env fst]. destruct (sched_effect _ _ _ _ _ _ _ _ E0 H1) as [Q|[(t & Q)|(t & Q & _)]].
    + rewrite Q. exact Hk. 
    + rewrite (revalued_keys _ _ _ _ _ Q). exact Hk.
    + unfold inserted in Q. rewrite Q. right. exact Hk.
  - unfold mark in E. destruct (_ <? INT_MAX); [|discriminate]. injection E as <-. exact Hk.
  - injection E as <-. cbn [rt_env r_env]. unfold request_stop. destruct (set_stop_spec (r_env s) (bump (e_cur (r_env s)))) as (-> & _). exact Hk.
Qed.
Lemma loop_keys P kp nd : forall steps s s' tr b, sound s -> tag_lt (e_cur (r_env s)) (e_stop (r_env s)) -> timers_logical (r_env s) -> loop_ok P kp nd s steps ->
  loop P kp nd s steps = Ok (Some (s', tr, b)) -> forall k, In k (keys (e_q (r_env s))) ->
  In k (keys (e_q (r_env s'))) \/ exists x, In x tr /\ l_tag x = snd k /\ In k (keys (l_events x)).
Proof.
  induction steps as [|[now l|l] steps IH]; intros s s' tr b S Hlt Htl Hok H k Hk; cbn [loop] in H.
  - injection H as <- <- <-. left; exact Hk.
  - bind_inv H. destruct Hok as (Hrg & Hok). destruct (enter_spec _ _ _ _ _ _ S Hlt Hrg Htl E) as (s1 & evs & down & -> & S1 & A1 & A2 & A3 & A4 & A5 & A6 & A7 & A8).
    bind_inv H. rename x into s2. destruct (Hok _ _ _ E) as (Hacts & Hok2). destruct (acts_sound _ _ _ _ _ S1 Hacts E0) as (S2 & B1 & B2 & B3 & B4).
    unfold keys in Hk. apply in_map_iff in Hk. destruct Hk as (v & <- & Hv).
    assert (Hd : In v evs /\ ev_tag v = e_cur (r_env s1) \/ In (key v) (keys (e_q (r_env s2)))).
    { destruct (Z.eq_dec (tag_compare (ev_tag v) (e_cur (r_env s1))) 0) as [Q|Q].
      - apply tag_compare_eq in Q. left. split; [apply A5; auto|exact Q].
      - right. eapply acts_keys; [exact S1|exact Hacts|exact E0|]. apply in_map. apply A6; [exact Hv|]. intros C. apply Q, tag_compare_eq, C. }
    assert (Hin : In v evs /\ ev_tag v = e_cur (r_env s1) -> forall rest, exists x, In x (mkLine (e_cur (r_env s1)) evs down :: rest) /\ l_tag x = snd (key v) /\ In (key v) (keys (l_events x))).
    { intros (Q1 & Q2) rest. eexists. split; [left; reflexivity|]. cbn. split; [congruence|]. apply (in_map key), Q1. }
    destruct (continues s2) eqn:Ec.
    + apply (continues_spec _ S2) in Ec. bind_inv H. destruct x as [[[s3 tr3] b3]|]; [|discriminate]. injection H as <- <- <-.
      assert (Htl2 : timers_logical (r_env s2)).
      { eapply timers_logical_ext; [|exact Htl]. intros u. destruct (acts_static _ _ _ _ _ E0 u) as (-> & -> & ->). apply A8. }
      destruct Hd as [Hd|Hd]; [right; apply Hin, Hd|]. destruct (IH s2 _ _ _ S2 Ec Htl2 (Hok2 _ E0) E1 _ Hd) as [Q|(x & Q1 & Q2)]; [left; exact Q|right; exists x; split; [right; exact Q1|exact Q2]].
    + injection H as <- <- <-. destruct Hd as [Hd|Hd]; [right; apply Hin, Hd|left; exact Hd].
  - destruct Hok as (Hrg & Hacts & Hok). revert H Hacts Hok. cbv zeta.
    set (e1 := match min_tag (e_q (r_env s)) with Some _ => r_env s | None => _ end). intros H Hacts Hok. bind_inv H. rename x into s1.
    assert (K : sound (rt_env s e1) /\ tag_lt (e_cur e1) (e_stop e1) /\ e_tr e1 = e_tr (r_env s) /\ e_q e1 = e_q (r_env s)).
    { assert (K0 : sound (rt_env s (r_env s)) /\ tag_lt (e_cur (r_env s)) (e_stop (r_env s)) /\ e_tr (r_env s) = e_tr (r_env s) /\ e_q (r_env s) = e_q (r_env s))
        by (split; [exact S|]; auto).
      subst e1. destruct (min_tag (e_q (r_env s))); [exact K0|]. destruct kp; [exact K0|]. destruct Hrg as (_ & Hm). destruct (sound_stop s S Hm) as (S1 & H1).
      destruct (set_stop_spec (r_env s) (bump (e_cur (r_env s)))) as (E1 & E2 & E3 & E4 & E5 & E6 & E7). split; [exact S1|]. rewrite E1, E2, E3. auto. }
    destruct K as (K1 & K4 & K5 & K6). destruct (acts_sound _ _ _ _ _ K1 Hacts E) as (S2 & B1 & B2 & B3 & B4). cbn [rt_env r_env] in B1, B2, B3, B4. specialize (B3 K4).
    assert (Htl2 : timers_logical (r_env s1)).
    { intros u. destruct (acts_static _ _ _ _ _ E u) as (-> & _ & ->). cbn [rt_env r_env]. rewrite K5. apply Htl. }
    apply (IH s1 s' tr b S2 B3 Htl2 (Hok _ eq_refl) H). eapply acts_keys; [exact K1|exact Hacts|exact E|]. cbn [rt_env r_env]. rewrite K6. exact Hk.
Qed.

(** *** Boolean checkers for the examples *)
Definition act_okb (nd : bool) (s : rt) (a : uact) : bool :=
  match a with ASched now tr extra _ => sched_okb nd now (r_env s) tr extra | ASet _ => true | AStop => tmicro (e_cur (r_env s)) <? UINT_MAX end.
Fixpoint acts_okb (P : prog) (nd : bool) (s : rt) (l : list uact) : bool :=
  match l with [] => true | a :: r => act_okb nd s a && match act P nd s a with Ok s1 => acts_okb P nd s1 r | UB => true end end.
Lemma acts_okb_ok P nd : forall l s, acts_okb P nd s l = true -> acts_ok P nd s l.
Proof.
  induction l as [|a l IH]; intros s H; [exact I|]. cbn [acts_okb] in H. apply andb_true_iff in H. destruct H as (H1 & H2). split.
  - destruct a; cbn in *; [apply sched_okb_ok, H1|exact I|lia].
  - intros s1 E. rewrite E in H2. apply IH, H2.
Qed.
Definition in_rangeb (s : rt) : bool :=
  forallb (fun v => tag_okb (ev_tag v) && (NEVER <? ttime (ev_tag v)) && (ttime (ev_tag v) <? FOREVER)) (e_q (r_env s)) && (tmicro (e_cur (r_env s)) <? UINT_MAX).
Lemma in_rangeb_ok s : in_rangeb s = true -> in_range s.
Proof.
  unfold in_rangeb. rewrite andb_true_iff, forallb_forall. intros (H & Hm). split; [|lia]. intros v Hv. specialize (H v Hv). rewrite !andb_true_iff in H. destruct H as ((H & H1) & H2). split; [apply tag_okb_spec, H|lia].
Qed.
Fixpoint loop_okb (P : prog) (kp nd : bool) (s : rt) (steps : list turn) : bool :=
  match steps with
  | [] => true
  | TIntr l :: r => in_rangeb s &&
      let e := r_env s in
      let e1 := match min_tag (e_q e) with None => if kp then e else set_stop e (bump (e_cur e)) | Some _ => e end in
      acts_okb P nd (rt_env s e1) l && match acts P nd (rt_env s e1) l with Ok s1 => loop_okb P kp nd s1 r | UB => true end
  | TStep now l :: r => in_rangeb s &&
      match enter P kp nd now s with
      | Ok (Some (s1, evs, down)) => acts_okb P nd s1 l && match acts P nd s1 l with Ok s2 => loop_okb P kp nd s2 r | UB => true end
      | _ => true
      end
  end.
Lemma loop_okb_ok P kp nd : forall steps s, loop_okb P kp nd s steps = true -> loop_ok P kp nd s steps.
Proof.
  induction steps as [|[now l|l] steps IH]; intros s H; [exact I| |]; cbn [loop_okb loop_ok] in *; apply andb_true_iff in H; destruct H as (H1 & H2); (split; [apply in_rangeb_ok, H1|]).
  - intros s1 evs down E. rewrite E in H2. apply andb_true_iff in H2. destruct H2 as (H2 & H3). split; [apply acts_okb_ok, H2|]. intros s2 E2. rewrite E2 in H3. apply IH, H3.
  - cbv zeta in *. apply andb_true_iff in H2. destruct H2 as (H2 & H3). split; [apply acts_okb_ok, H2|]. intros s2 E2. rewrite E2 in H3. apply IH, H3.
Qed.
