(** Proofs for C64. *)
From Verif Require Import Base Tag TagSpec TagProofs Pqueue PqueueProofs Token TokenProofs Schedule ScheduleSpec ScheduleProofs Runtime RuntimeSpec RuntimeProofs Timers TimersSpec.
From Coq Require Import Arith.
Open Scope Z_scope.

Definition own (tr : nat) (q : list event) : list event := filter (of_trigger tr) q.
Lemma own_cons tr v q : own tr (v :: q) = if of_trigger tr v then v :: own tr q else own tr q.
Proof. reflexivity. Qed.
Lemma own_app tr a b : own tr (a ++ b) = own tr a ++ own tr b.
Proof. apply filter_app. Qed.
Lemma of_trigger_spec tr v : of_trigger tr v = true <-> ev_trig v = Some tr.
Proof. unfold of_trigger. destruct (ev_trig v) as [u|]; [|split; discriminate]. rewrite Nat.eqb_eq. split; [intros ->; reflexivity|intros H; now injection H]. Qed.
Lemma of_trigger_ne tr v u : ev_trig v = Some u -> u <> tr -> of_trigger tr v = false.
Proof. intros H N. unfold of_trigger. rewrite H. now apply Nat.eqb_neq. Qed.
Lemma own_filter tr f q : own tr (filter f q) = filter f (own tr q).
Proof. unfold own. induction q as [|v q IH]; [reflexivity|]. cbn [filter]. destruct (f v) eqn:E1, (of_trigger tr v) eqn:E2; cbn [filter]; rewrite ?E1, ?E2, IH; reflexivity. Qed.

(** *** Calls for other triggers leave the events of [tr] alone *)
Lemma sched_own nd now e u extra tok e' h tr : sched nd now e (Some u) extra tok = Ok (e', h) -> u <> tr -> own tr (e_q e') = own tr (e_q e).
Proof.
  intros H N. apply sched_call in H. destruct H as (_ & [A|v A B|t A|b A]); rewrite A.
  - reflexivity.
  - destruct (set_ev_tok_spec _ _ _ tok _ B) as (a & b & E1 & E2). rewrite E1 in E2. rewrite E1, E2, !own_app, !own_cons.
    apply find_ev_some in B. destruct B as (_ & B). unfold key in B. injection B as B1 B2. rewrite (of_trigger_ne tr v u B1 N). rewrite (of_trigger_ne tr (mkEv _ _ _) u eq_refl N). reflexivity.
  - rewrite own_cons, (of_trigger_ne tr (mkEv _ _ _) u eq_refl N). reflexivity.
  - rewrite own_cons, (of_trigger_ne tr (mkEv _ _ _) u eq_refl N). reflexivity.
Qed.
Lemma acts_own P nd tr : forall l s s', Forall (leaves_alone tr) l -> acts P nd s l = Ok s' -> own tr (e_q (r_env s')) = own tr (e_q (r_env s)).
Proof.
  induction l as [|a l IH]; intros s s' F H; cbn in H; [injection H as <-; reflexivity|]. inversion F as [|? ? F1 F2]; subst. bind_inv H. rewrite (IH x s' F2 H).
  destruct a as [now u extra tok|f|]; cbn [act leaves_alone] in *.
  - bind_inv E. injection E as <-. destruct x0 as [e' h]. exact (sched_own _ _ _ _ _ _ _ _ tr E0 F1).
  - unfold mark in E. destruct (_ <? INT_MAX); [|discriminate]. injection E as <-. reflexivity.
  - injection E as <-. cbn [rt_env r_env]. unfold request_stop. destruct (set_stop_spec (r_env s) (bump (e_cur (r_env s)))) as (-> & _). reflexivity.
Qed.

(** *** A timer is scheduled again *)
Lemma timer_again nd now e tr e' h : tg_timer (e_tr e tr) = true -> tg_phys (e_tr e tr) = false -> 0 < tg_period (e_tr e tr) ->
  NEVER < ttime (e_cur e) < FOREVER -> tag_le (e_cur e) (e_stop e) ->
  sched nd now e (Some tr) (tg_period (e_tr e tr)) None = Ok (e', h) ->
  let t := delay_tag (e_cur e) (tg_period (e_tr e tr)) in
  e_q e' = (if after_stop e t then e_q e else mkEv t (Some tr) None :: e_q e).
Proof.
  intros Ht Hp Hper Hr Hs H. cbv zeta. unfold sched in H. rewrite (proj2 (after_stop_spec e (e_cur e)) Hs) in H. cbn [hold_opt bind] in H.
  change (e_tr (with_tok e (e_tok e))) with (e_tr e) in H. rewrite Ht, Hp in H. cbn [bind] in H.
  change (e_cur (with_tok e (e_tok e))) with (e_cur e) in H.
  replace (if tg_period (e_tr e tr) <? 0 then 0 else tg_period (e_tr e tr)) with (tg_period (e_tr e tr)) in H by (destruct (Z.ltb_spec (tg_period (e_tr e tr)) 0); lia).
  set (t := delay_tag (e_cur e) (tg_period (e_tr e tr))) in *.
  assert (K : ttime (e_cur e) < ttime t) by (subst t; unfold delay_tag; repeat case_if; cbn; unfold FOREVER_TAG; cbn; lia).
  change (clamp_now nd (with_tok e (e_tok e)) t) with (clamp_now nd e t) in H. rewrite (clamp_id nd e t) in H by lia.
  destruct (Z.leb_spec (tg_period (e_tr e tr)) 0) as [L|_]; [lia|]. cbn [negb andb] in H.
  unfold sched_finish in H. cbv zeta in H. change (clamp_now nd (with_tok e (e_tok e)) t) with (clamp_now nd e t) in H. rewrite (clamp_id nd e t) in H by lia.
  change (e_cur (with_tok e (e_tok e))) with (e_cur e) in H.
  assert (Ne : (tag_compare t (e_cur e) =? 0) = false). { apply Z.eqb_neq. intros C. apply tag_compare_eq in C. rewrite C in K. lia. }
  rewrite Ne in H. change (after_stop (with_tok e (e_tok e)) t) with (after_stop e t) in H. destruct (after_stop e t).
  - cbn in H. injection H as <- _. reflexivity.
  - unfold take_handle in H. destruct (_ <? INT_MAX); [|discriminate]. injection H as <- _. reflexivity.
Qed.

(** *** Popping *)
Lemma pop_all_app P nd now a : forall s b s', pop_all P nd now s (a ++ b) = Ok s' -> exists s1, pop_all P nd now s a = Ok s1 /\ pop_all P nd now s1 b = Ok s'.
Proof.
  induction a as [|v a IH]; intros s b s' H; cbn [app pop_all] in *; [eauto|]. bind_inv H. destruct (IH _ _ _ H) as (s1 & A & B). exists s1. cbn [bind]. auto.
Qed.
Lemma pop_one_own P nd now s v s' tr : pop_one P nd now s v = Ok s' -> of_trigger tr v = false -> own tr (e_q (r_env s')) = own tr (e_q (r_env s)).
Proof.
  intros H N. unfold pop_one in H. destruct (ev_trig v) as [u|] eqn:Ev; [|injection H as <-; reflexivity]. cbv zeta in H.
  assert (Nu : u <> tr). { intros ->. rewrite (proj2 (of_trigger_spec tr v) Ev) in N. discriminate. }
  bind_inv H. rename x into s1. bind_inv H. bind_inv H. injection H as <-. cbn [rt_env r_env with_tok e_q].
  destruct (_ && _) in E.
  - bind_inv E. injection E as <-. destruct x1 as [e' h]. cbn [r_env fst]. exact (sched_own _ _ _ _ _ _ _ _ tr E2 Nu).
  - unfold mark in E. destruct (_ <? INT_MAX); [|discriminate]. injection E as <-. reflexivity.
Qed.
Lemma pop_all_own P nd now tr : forall l s s', pop_all P nd now s l = Ok s' -> own tr l = [] -> own tr (e_q (r_env s')) = own tr (e_q (r_env s)).
Proof.
  induction l as [|v l IH]; intros s s' H O; cbn in H; [injection H as <-; reflexivity|]. bind_inv H. rewrite own_cons in O. destruct (of_trigger tr v) eqn:Ev; [discriminate|].
  rewrite (IH _ _ H O). exact (pop_one_own _ _ _ _ _ _ _ E Ev).
Qed.
Lemma own_split tr v : forall l, own tr l = [v] -> exists a b, l = a ++ v :: b /\ own tr a = [] /\ own tr b = [].
Proof.
  induction l as [|x l IH]; intros H; [discriminate|]. rewrite own_cons in H. destruct (of_trigger tr x) eqn:E.
  - injection H as -> H. exists [], l. auto.
  - destruct (IH H) as (a & b & -> & A & B). exists (x :: a), b. split; [reflexivity|]. rewrite own_cons, E. auto.
Qed.
Lemma pop_one_timer P nd now s v s' tr : pop_one P nd now s v = Ok s' -> ev_trig v = Some tr -> tg_timer (e_tr (r_env s) tr) = true -> timers_logical (r_env s) ->
  NEVER < ttime (e_cur (r_env s)) < FOREVER -> tag_le (e_cur (r_env s)) (e_stop (r_env s)) ->
  own tr (e_q (r_env s')) =
    if (0 <? tg_period (e_tr (r_env s) tr)) && negb (after_stop (r_env s) (delay_tag (e_cur (r_env s)) (tg_period (e_tr (r_env s) tr))))
    then mkEv (delay_tag (e_cur (r_env s)) (tg_period (e_tr (r_env s) tr))) (Some tr) None :: own tr (e_q (r_env s)) else own tr (e_q (r_env s)).
Proof.
  intros H Ev Ht Htl Hr Hs. unfold pop_one in H. rewrite Ev in H. cbv zeta in H. rewrite Ht in H. cbn [andb] in H. bind_inv H. rename x into s1. bind_inv H. bind_inv H. injection H as <-. cbn [rt_env r_env with_tok e_q].
  destruct (Z.ltb_spec 0 (tg_period (e_tr (r_env s) tr))) as [Hp|Hp]; cbn [andb].
  - bind_inv E. injection E as <-. destruct x1 as [e' h]. cbn [r_env fst]. apply timer_again in E2; [|exact Ht|apply Htl, Ht|exact Hp|exact Hr|exact Hs]. cbv zeta in E2. rewrite E2.
    destruct (after_stop _ _); cbn [negb]; [reflexivity|]. rewrite own_cons. rewrite (proj2 (of_trigger_spec tr (mkEv _ _ _)) eq_refl). reflexivity.
  - unfold mark in E. destruct (_ <? INT_MAX); [|discriminate]. injection E as <-. reflexivity.
Qed.

(** What [enter] does to the queue. *)
Lemma enter_inner P kp nd now s s1 evs down : enter P kp nd now s = Ok (Some (s1, evs, down)) ->
  exists s0 t, e_cur (r_env s0) = t /\ evs = filter (at_tag t) (e_q (r_env s)) /\ e_q (r_env s0) = filter (fun v => negb (at_tag t v)) (e_q (r_env s)) /\
    e_tr (r_env s0) = e_tr (r_env s) /\ pop_all P nd now s0 evs = Ok s1.
Proof.
  intros H. unfold enter in H. cbv zeta in H.
  set (e1 := match min_tag (e_q (r_env s)) with Some _ => r_env s | None => if kp then r_env s else set_stop (r_env s) (bump (e_cur (r_env s))) end) in *.
  assert (Q : e_q e1 = e_q (r_env s) /\ e_tr e1 = e_tr (r_env s)).
  { subst e1. destruct (min_tag _); [auto|]. destruct kp; [auto|]. destruct (set_stop_spec (r_env s) (bump (e_cur (r_env s)))) as (-> & _ & -> & _). auto. }
  destruct (advance nd e1 _) as [e2|] eqn:Ea; [|discriminate]. bind_inv H. injection H as <- <- _. destruct x as [s2 evs]. cbn [fst snd].
  assert (Q2 : e_q e2 = e_q e1 /\ e_tr e2 = e_tr e1). { unfold advance in Ea. destruct (_ && _); [discriminate|]. destruct (_ <? 0); [|discriminate]. injection Ea as <-. auto. }
  unfold pop_events in E. cbv zeta in E. rewrite clear_env in E. cbn [rt_env r_env] in E. bind_inv E. injection E as <- <-.
  destruct Q as (Q & Q'), Q2 as (Q2 & Q2'). rewrite Q2, Q in *.
  eexists _, (e_cur e2). split; [|split; [reflexivity|split; [|split; [|exact E0]]]]; cbn [rt_env r_env with_q e_cur e_q e_tr]; congruence.
Qed.

Section Timer.
Variables (tr : nat) (start offset period : Z).
Hypothesis Ho : 0 <= offset.
Hypothesis Hp : 0 <= period.
Definition T (k : Z) : Z := start + offset + k * period.

(** [k]: the next time the timer is supposed to fire. *)
Definition next (e : env) (k : Z) : Prop :=
  0 <= k /\ (forall j, 0 <= j < k -> (period = 0 -> j = 0) -> tag_le (mkTag (T j) 0) (e_cur e)) /\
  ((exists v, own tr (e_q e) = [v] /\ ((ev_tag v = mkTag (T k) 0 /\ (period = 0 -> k = 0)) \/ (FOREVER <= T k /\ ttime (ev_tag v) = FOREVER))) \/
   (own tr (e_q e) = [] /\ ((period = 0 /\ 1 <= k) \/ FOREVER <= T k \/ tag_lt (e_stop e) (mkTag (T k) 0)))).

Lemma T_mono j k : j <= k -> T j <= T k.
Proof. intros H. unfold T. pose proof (Z.mul_le_mono_nonneg_r j k period Hp H). lia. Qed.
Lemma tag_T j k : j <= k -> tag_le (mkTag (T j) 0) (mkTag (T k) 0).
Proof. intros H. pose proof (T_mono j k H). unfold tag_le; cbn. lia. Qed.

Lemma next_later e e' k : next e k -> own tr (e_q e') = own tr (e_q e) -> e_cur e' = e_cur e -> tag_le (e_stop e') (e_stop e) -> next e' k.
Proof.
  intros (A & B & C) Q Cu St. split; [exact A|]. split; [rewrite Cu; exact B|]. rewrite Q. destruct C as [C|(C & D)]; [left; exact C|right]. split; [exact C|].
  destruct D as [D|[D|D]]; auto. right; right. eapply tag_le_lt_trans; [exact St|exact D].
Qed.

Lemma next_step P kp nd now s s1 evs down k : sound s -> tag_lt (e_cur (r_env s)) (e_stop (r_env s)) -> in_range s -> timers_logical (r_env s) ->
  tg_timer (e_tr (r_env s) tr) = true -> tg_period (e_tr (r_env s) tr) = period ->
  enter P kp nd now s = Ok (Some (s1, evs, down)) -> next (r_env s) k ->
  ((due start offset period (e_cur (r_env s1)) /\ exists v, own tr evs = [v]) \/ (~ due start offset period (e_cur (r_env s1)) /\ own tr evs = [])) /\
  (exists k', next (r_env s1) k') /\
  (forall t, due start offset period t -> tag_lt (e_cur (r_env s)) t -> tag_le t (e_cur (r_env s1)) -> t = e_cur (r_env s1)).
Proof.
  intros S Hlt Hrg Htl Htm Hper H N. destruct (enter_spec _ _ _ _ _ _ S Hlt Hrg Htl H) as (s1' & evs' & down' & Er & S1 & A1 & A2 & A3 & A4 & A5 & A6 & A7 & A8). injection Er as <- <- <-.
  destruct (enter_inner _ _ _ _ _ _ _ _ H) as (s0 & t & E1 & E2 & E3 & E4 & E5). cbv zeta in *. set (cur1 := e_cur (r_env s1)) in *.
  assert (Hnv : evs <> [] -> NEVER < ttime cur1 < FOREVER).
  { intros Hne. destruct evs as [|v l]; [congruence|]. assert (Hin : In v (v :: l)) by (left; reflexivity). apply A5 in Hin. destruct Hin as (Hin & Hv). destruct Hrg as (Hr & _). destruct (Hr v Hin) as (_ & K). rewrite Hv in K. exact K. }
  assert (Et : t = cur1 /\ e_stop (r_env s1) = e_stop (r_env s0)).
  { destruct (list_eq_dec (fun a b : event => ltac:(repeat decide equality) : {a = b} + {a <> b}) evs []) as [Hn|Hn].
    - rewrite Hn in E5. cbn in E5. injection E5 as E5. subst cur1. rewrite <- E5. auto.
    - assert (K : t = cur1). { destruct evs as [|v l]; [congruence|]. assert (Hin : In v (v :: l)) by (left; reflexivity). pose proof Hin as Hin2. apply A5 in Hin. rewrite E2 in Hin2. apply filter_In in Hin2. destruct Hin2 as (_ & K). apply at_tag_spec in K. destruct Hin. congruence. }
      split; [exact K|]. assert (Htl0 : timers_logical (r_env s0)) by (intros u; rewrite E4; apply Htl).
      pose proof (pop_all_grown _ _ _ _ _ _ E5 Htl0) as G. rewrite E1, K in G. destruct (G Hnv) as ((_ & -> & _) & _). reflexivity. }
  destruct Et as (-> & Es). destruct N as (N1 & N2 & N3).
  assert (Ow : own tr evs = filter (at_tag cur1) (own tr (e_q (r_env s)))) by (rewrite E2; apply own_filter).
  assert (Oq : own tr (e_q (r_env s0)) = filter (fun v => negb (at_tag cur1 v)) (own tr (e_q (r_env s)))) by (rewrite E3; apply own_filter).
  (* all firings before k are over *)
  assert (Past : forall t, due start offset period t -> tag_lt (e_cur (r_env s)) t -> (period = 0 /\ 1 <= k -> False) /\ tag_le (mkTag (T k) 0) t /\ T k < FOREVER).
  { intros u (j & D1 & D2 & D3 & ->) D4. assert (J : k <= j). { destruct (Z.lt_ge_cases j k) as [L|L]; [|exact L]. pose proof (N2 j (conj D1 L) D2) as Q. apply tag_not_lt in Q. contradiction. }
    split; [intros (Q1 & Q2); specialize (D2 Q1); lia|]. split; [exact (tag_T k j J)|]. pose proof (T_mono k j J). fold (T j) in D3. lia. }
  assert (Stop1 : tag_le cur1 (e_stop (r_env s))) by (eapply tag_le_trans; [|exact A2]; apply S1).
  assert (Quiet : own tr evs = [] -> (forall t, due start offset period t -> tag_lt (e_cur (r_env s)) t -> tag_lt cur1 t) ->
    own tr (e_q (r_env s0)) = own tr (e_q (r_env s)) ->
    ((due start offset period cur1 /\ exists v, own tr evs = [v]) \/ (~ due start offset period cur1 /\ own tr evs = [])) /\
    (exists k', next (r_env s1) k') /\
    (forall t, due start offset period t -> tag_lt (e_cur (r_env s)) t -> tag_le t cur1 -> t = cur1)).
  { intros O D Oe. split; [right; split; [intros Q; apply (tag_lt_irrefl cur1), (D _ Q A1)|exact O]|]. split.
    - exists k. split; [exact N1|]. split.
      + intros j J1 J2. eapply tag_le_trans; [exact (N2 j J1 J2)|]. apply tag_lt_le, A1.
      + rewrite (pop_all_own _ _ _ tr _ _ _ E5 O), Oe. destruct N3 as [N3|(N3 & N4)]; [left; exact N3|right]. split; [exact N3|].
        destruct N4 as [N4|[N4|N4]]; auto. right; right. eapply tag_le_lt_trans; [exact A2|exact N4].
    - intros t Dt L1 L2. specialize (D t Dt L1). apply tag_not_lt in L2. contradiction. }
  destruct N3 as [(v & Ov & Hv)|(Ov & Hv)].
  - assert (Hin : In v (e_q (r_env s)) /\ ev_trig v = Some tr).
    { assert (K : In v (own tr (e_q (r_env s)))) by (rewrite Ov; left; reflexivity). apply filter_In in K. rewrite of_trigger_spec in K. exact K. }
    destruct Hin as (Hin & Htr). destruct Hv as [(Hv & Hz)|(_ & Hv)]; [|destruct Hrg as (Hrg & _); destruct (Hrg v Hin) as (_ & K); lia].
    pose proof (A3 v Hin) as Le. rewrite Hv in Le. apply tag_le_lt_or_eq in Le. destruct Le as [Lt|Eq].
    + (* not yet *)
      assert (At : at_tag cur1 v = false). { destruct (at_tag cur1 v) eqn:Q; [|reflexivity]. apply at_tag_spec in Q. rewrite Hv in Q. rewrite Q in Lt. destruct (tag_lt_irrefl _ Lt). }
      apply Quiet.
      * rewrite Ow, Ov. cbn [filter]. rewrite At. reflexivity.
      * intros u Du Lu. destruct (Past u Du Lu) as (_ & Q & _). eapply tag_lt_le_trans; [exact Lt|exact Q].
      * rewrite Oq, Ov. cbn [filter]. rewrite At. reflexivity.
    + (* it fires *)
      assert (At : at_tag cur1 v = true) by (apply at_tag_spec; congruence).
      assert (Oe : own tr evs = [v]) by (rewrite Ow, Ov; cbn [filter]; rewrite At; reflexivity).
      assert (O0 : own tr (e_q (r_env s0)) = []) by (rewrite Oq, Ov; cbn [filter]; rewrite At; reflexivity).
      assert (Rng : NEVER < T k < FOREVER). { destruct Hrg as (Hr & _). destruct (Hr v Hin) as (_ & K). rewrite Hv in K. exact K. }
      assert (Du : due start offset period cur1) by (exists k; rewrite Eq; fold (T k); repeat split; auto; apply Rng).
      split; [left; split; [exact Du|eauto]|]. split; [|intros u Dt L1 L2; destruct (Past u Dt L1) as (_ & Q & _); rewrite <- Eq in Q; apply tag_le_antisym; assumption].
      destruct (own_split _ _ _ Oe) as (a & b & Ee & Oa & Ob). rewrite Ee in E5. destruct (pop_all_app _ _ _ _ _ _ _ E5) as (sa & Pa & Pb). cbn [pop_all] in Pb. bind_inv Pb. rename x into sb.
      assert (Htl0 : timers_logical (r_env s0)) by (intros u; rewrite E4; apply Htl).
      assert (Rc : NEVER < ttime (e_cur (r_env s0)) < FOREVER) by (rewrite E1, Eq; exact Rng).
      pose proof (pop_all_grown _ _ _ _ _ _ Pa Htl0 (fun _ => Rc)) as ((G1 & G2 & _) & _ & _ & G6).
      assert (Htla : timers_logical (r_env sa)) by (eapply timers_logical_ext; [exact G6|exact Htl0]).
      destruct (G6 tr) as (Gt & Gp & _). rewrite E4 in Gt, Gp. rewrite Htm in Gt. rewrite Hper in Gp.
      pose proof (pop_all_own _ _ _ tr _ _ _ Pa Oa) as Qa. rewrite O0 in Qa. pose proof (pop_all_own _ _ _ tr _ _ _ Pb Ob) as Qb.
      rewrite (pop_one_timer _ _ _ _ _ _ tr E Htr Gt Htla) in Qb; [|rewrite G1; exact Rc|rewrite G1, G2, E1, <- Es; apply S1]. rewrite Gp, G1, E1, Qa in Qb.
      exists (k + 1). split; [lia|]. split.
      * intros j J1 J2. fold cur1. rewrite Eq. apply tag_T. lia.
      * rewrite Qb. destruct (Z.ltb_spec 0 period) as [Pp|Pp]; cbn [andb]; [|right; split; [reflexivity|left; lia]].
        assert (Dl : delay_tag cur1 period = if FOREVER <=? T (k + 1) then FOREVER_TAG else mkTag (T (k + 1)) 0).
        { unfold delay_tag. rewrite Eq. cbn [ttime tmicro]. replace (T (k + 1)) with (T k + period) by (unfold T; ring).
          destruct (Z.eqb_spec (T k) NEVER); [lia|]. destruct (Z.ltb_spec period 0); [lia|]. cbn [orb]. destruct (Z.leb_spec (FOREVER - period) (T k)), (Z.leb_spec FOREVER (T k + period)); try lia; [reflexivity|].
          destruct (Z.eqb_spec period 0); [lia|reflexivity]. }
        assert (Ast : after_stop (r_env sa) (delay_tag cur1 period) = after_stop (r_env s1) (delay_tag cur1 period)) by (unfold after_stop; rewrite G2, Es; reflexivity).
        rewrite Ast. destruct (after_stop (r_env s1) (delay_tag cur1 period)) eqn:Af; cbn [negb].
        -- right. split; [reflexivity|]. right. rewrite Dl in Af. destruct (Z.leb_spec FOREVER (T (k + 1))) as [L|L]; [left; exact L|right].
           apply tag_not_le. intros C. apply after_stop_spec in C. congruence.
        -- left. eexists. split; [reflexivity|]. cbn [ev_tag]. rewrite Dl. destruct (Z.leb_spec FOREVER (T (k + 1))) as [L|L]; [right; split; [exact L|reflexivity]|left; split; [reflexivity|lia]].
  - apply Quiet.
    + rewrite Ow, Ov. reflexivity.
    + intros u Du Lu. destruct (Past u Du Lu) as (Q1 & Q2 & Q3). destruct Hv as [Hv|[Hv|Hv]]; [destruct (Q1 Hv)|lia|]. eapply tag_le_lt_trans; [exact Stop1|]. eapply tag_lt_le_trans; [exact Hv|exact Q2].
    + rewrite Oq, Ov. reflexivity.
Qed.

Definition line_ok (x : line) : Prop :=
  (due start offset period (l_tag x) /\ exists v, firings tr x = [v]) \/ (~ due start offset period (l_tag x) /\ firings tr x = []).

Lemma loop_timer P kp nd : forall steps s s' ls b k, sound s -> tag_lt (e_cur (r_env s)) (e_stop (r_env s)) -> timers_logical (r_env s) -> loop_ok P kp nd s steps ->
  tg_timer (e_tr (r_env s) tr) = true -> tg_period (e_tr (r_env s) tr) = period -> Forall (turn_leaves_alone tr) steps ->
  loop P kp nd s steps = Ok (Some (s', ls, b)) -> next (r_env s) k ->
  (forall x, In x ls -> line_ok x) /\
  (forall t, due start offset period t -> tag_lt (e_cur (r_env s)) t -> tag_le t (e_cur (r_env s')) -> exists x, In x ls /\ l_tag x = t).
Proof.
  induction steps as [|[now l|l] steps IH]; intros s s' ls b k S Hlt Htl Hok Htm Hper Al H N; cbn [loop] in H.
  - injection H as <- <- <-. split; [intros x []|]. intros t _ L1 L2. apply tag_not_lt in L2. contradiction.
  - bind_inv H. destruct Hok as (Hrg & Hok). inversion Al as [|? ? Al1 Al2]; subst. cbn [turn_leaves_alone] in Al1.
    destruct (enter_spec _ _ _ _ _ _ S Hlt Hrg Htl E) as (s1 & evs & down & -> & S1 & A1 & A2 & A3 & A4 & A5 & A6 & A7 & A8).
    destruct (next_step _ _ _ _ _ _ _ _ k S Hlt Hrg Htl Htm Hper E N) as (F1 & (k1 & F2) & F3).
    bind_inv H. rename x into s2. destruct (Hok _ _ _ E) as (Hacts & Hok2). destruct (acts_sound _ _ _ _ _ S1 Hacts E0) as (S2 & B1 & B2 & B3 & B4).
    assert (N2 : next (r_env s2) k1) by (eapply next_later; [exact F2|exact (acts_own _ _ _ _ _ _ Al1 E0)|exact B1|exact B2]).
    assert (L0 : line_ok (mkLine (e_cur (r_env s1)) evs down)) by exact F1.
    destruct (continues s2) eqn:Ec.
    + apply (continues_spec _ S2) in Ec. bind_inv H. destruct x as [[[s3 ls3] b3]|]; [|discriminate]. injection H as <- <- <-.
      assert (St : forall u, tg_timer (e_tr (r_env s2) u) = tg_timer (e_tr (r_env s) u) /\ tg_period (e_tr (r_env s2) u) = tg_period (e_tr (r_env s) u) /\ tg_phys (e_tr (r_env s2) u) = tg_phys (e_tr (r_env s) u)).
      { intros u. destruct (acts_static _ _ _ _ _ E0 u) as (-> & -> & ->). apply A8. }
      assert (Htl2 : timers_logical (r_env s2)) by (eapply timers_logical_ext; [exact St|exact Htl]). destruct (St tr) as (St1 & St2 & _). rewrite Htm in St1. rewrite Hper in St2.
      destruct (IH s2 _ _ _ k1 S2 Ec Htl2 (Hok2 _ E0) St1 St2 Al2 E1 N2) as (C1 & C2). split.
      * intros x [<-|Hx]; auto.
      * intros t Dt L1 L2. destruct (Z.eq_dec (tag_compare t (e_cur (r_env s1))) 0) as [Q|Q].
        -- apply tag_compare_eq in Q. subst t. eexists. split; [left; reflexivity|reflexivity].
        -- destruct (C2 t Dt) as (x & X1 & X2); [|exact L2|exists x; split; [right; exact X1|exact X2]]. rewrite B1. apply tag_not_le. intros C. apply Q, tag_compare_eq. exact (F3 t Dt L1 C).
    + injection H as <- <- <-. split; [intros x [<-|[]]; exact L0|]. intros t Dt L1 L2. rewrite B1 in L2. specialize (F3 t Dt L1 L2). subst t. eexists. split; [left; reflexivity|reflexivity].
  - destruct Hok as (Hrg & Hacts & Hok). revert H Hacts Hok. cbv zeta. inversion Al as [|? ? Al1 Al2]; subst. cbn [turn_leaves_alone] in Al1.
    set (e1 := match min_tag (e_q (r_env s)) with Some _ => r_env s | None => _ end). intros H Hacts Hok. bind_inv H. rename x into s1.
    assert (K : sound (rt_env s e1) /\ e_cur e1 = e_cur (r_env s) /\ tag_le (e_stop e1) (e_stop (r_env s)) /\ tag_lt (e_cur e1) (e_stop e1) /\ e_tr e1 = e_tr (r_env s) /\ e_q e1 = e_q (r_env s)).
    { assert (K0 : sound (rt_env s (r_env s)) /\ e_cur (r_env s) = e_cur (r_env s) /\ tag_le (e_stop (r_env s)) (e_stop (r_env s)) /\ tag_lt (e_cur (r_env s)) (e_stop (r_env s)) /\ e_tr (r_env s) = e_tr (r_env s) /\ e_q (r_env s) = e_q (r_env s))
        by (split; [exact S|]; split; [reflexivity|]; split; [apply tag_le_refl|]; auto).
      subst e1. destruct (min_tag (e_q (r_env s))); [exact K0|]. destruct kp; [exact K0|]. destruct Hrg as (_ & Hm). destruct (sound_stop s S Hm) as (S1 & H1).
      destruct (set_stop_spec (r_env s) (bump (e_cur (r_env s)))) as (E1 & E2 & E3 & E4 & E5 & E6 & E7). split; [exact S1|]. rewrite E1, E2, E3. auto. }
    destruct K as (K1 & K2 & K3 & K4 & K5 & K6). destruct (acts_sound _ _ _ _ _ K1 Hacts E) as (S2 & B1 & B2 & B3 & B4). cbn [rt_env r_env] in B1, B2, B3, B4. specialize (B3 K4).
    assert (St : forall u, tg_timer (e_tr (r_env s1) u) = tg_timer (e_tr (r_env s) u) /\ tg_period (e_tr (r_env s1) u) = tg_period (e_tr (r_env s) u) /\ tg_phys (e_tr (r_env s1) u) = tg_phys (e_tr (r_env s) u)).
    { intros u. destruct (acts_static _ _ _ _ _ E u) as (-> & -> & ->). cbn [rt_env r_env]. rewrite K5. auto. }
    assert (Htl2 : timers_logical (r_env s1)) by (eapply timers_logical_ext; [exact St|exact Htl]). destruct (St tr) as (St1 & St2 & _). rewrite Htm in St1. rewrite Hper in St2.
    assert (N2 : next (r_env s1) k).
    { eapply next_later; [exact N| |congruence|eapply tag_le_trans; [exact B2|exact K3]]. rewrite (acts_own _ _ _ _ _ _ Al1 E). cbn [rt_env r_env]. rewrite K6. reflexivity. }
    destruct (IH s1 s' ls b k S2 B3 Htl2 (Hok _ eq_refl) St1 St2 Al2 H N2) as (C1 & C2). split; [exact C1|]. intros t Dt L1 L2. apply C2; [exact Dt|rewrite B1, K2; exact L1|exact L2].
Qed.

(** *** Start *)
Lemma init_timer_other e u e' : init_timer e u = Ok e' -> u <> tr -> own tr (e_q e') = own tr (e_q e).
Proof.
  intros H N. unfold init_timer in H. cbv zeta in H. destruct (_ && _); [injection H as <-; reflexivity|]. bind_inv H. injection H as <-. destruct (after_stop _ _); [reflexivity|].
  cbn [insert_ev with_q e_q]. rewrite own_cons, (of_trigger_ne tr (mkEv _ _ _) u eq_refl N). reflexivity.
Qed.
Lemma init_timer_keeps e u e' : init_timer e u = Ok e' -> e_cur e' = e_cur e /\ e_stop e' = e_stop e /\ e_tr e' = e_tr e.
Proof. intros H. unfold init_timer in H. cbv zeta in H. destruct (_ && _); [injection H as <-; auto|]. bind_inv H. injection H as <-. destruct (after_stop _ _); auto. Qed.
Lemma init_timers_other l : forall e e', init_timers e l = Ok e' -> ~ In tr l -> own tr (e_q e') = own tr (e_q e).
Proof.
  induction l as [|u l IH]; intros e e' H N; cbn in H; [injection H as <-; reflexivity|]. bind_inv H. rewrite (IH _ _ H) by (intros C; apply N; right; exact C).
  apply (init_timer_other _ _ _ E). intros ->. apply N. left; reflexivity.
Qed.
Lemma init_timers_keeps l : forall e e', init_timers e l = Ok e' -> e_cur e' = e_cur e /\ e_stop e' = e_stop e /\ e_tr e' = e_tr e.
Proof.
  induction l as [|u l IH]; intros e e' H; cbn in H; [injection H as <-; auto|]. bind_inv H. destruct (init_timer_keeps _ _ _ E) as (A & B & C), (IH _ _ H) as (A' & B' & C'). repeat split; congruence.
Qed.
Lemma init_next l : forall e e', init_timers e l = Ok e' -> NoDup l -> In tr l -> own tr (e_q e) = [] -> e_cur e = mkTag start 0 ->
  tg_offset (e_tr e tr) = offset -> tg_period (e_tr e tr) = period -> exists k, next e' k.
Proof.
  induction l as [|u l IH]; intros e e' H ND I O Cu Of Pe; [destruct I|]. inversion ND as [|? ? ND1 ND2]; subst. cbn in H. bind_inv H. destruct (init_timer_keeps _ _ _ E) as (K1 & K2 & K3).
  destruct (Nat.eq_dec u tr) as [->|N].
  - pose proof (init_timers_other _ _ _ H ND1) as Q. destruct (init_timers_keeps _ _ _ H) as (L1 & L2 & L3). unfold init_timer in E. cbv zeta in E. rewrite Cu in E. cbn [ttime] in E.
    rewrite Of, Pe in E.
    assert (T0 : T 0 = start + offset) by (unfold T; lia). assert (T1 : offset = 0 -> T 1 = start + period) by (unfold T; lia).
    assert (Past0 : offset = 0 -> forall j, 0 <= j < 1 -> (period = 0 -> j = 0) -> tag_le (mkTag (T j) 0) (e_cur e')).
    { intros Z j J _. assert (j = 0) by lia. subst j. rewrite L1, K1, Cu, T0, Z. replace (start + 0) with start by lia. apply tag_le_refl. }
    destruct (Z.eqb_spec offset 0) as [Zo|Zo].
    + destruct (Z.eqb_spec period 0) as [Zp|Zp]; cbn [andb] in E.
      * injection E as <-. exists 1. split; [lia|]. split; [exact (Past0 Zo)|]. right. split; [congruence|]. left. lia.
      * bind_inv E. injection E as <-. unfold c_add64 in E0. destruct (in_int64b _) eqn:I64; [|discriminate]. injection E0 as <-. apply in_int64b_spec in I64.
        exists 1. split; [lia|]. split; [exact (Past0 Zo)|]. rewrite (T1 Zo). destruct (after_stop e (mkTag (start + period) 0)) eqn:Af.
        -- right. split; [congruence|]. right; right. rewrite L2. apply tag_not_le. intros C. apply (after_stop_spec e) in C. congruence.
        -- left. eexists. rewrite Q. cbn [insert_ev with_q e_q]. rewrite own_cons, (proj2 (of_trigger_spec tr (mkEv _ _ _)) eq_refl), O. split; [reflexivity|]. left. split; [reflexivity|lia].
    + cbn [andb] in E. bind_inv E. injection E as <-. unfold c_add64 in E0. destruct (in_int64b _) eqn:I64; [|discriminate]. injection E0 as <-. apply in_int64b_spec in I64.
      exists 0. split; [lia|]. split; [intros j J; lia|]. rewrite T0. destruct (after_stop e (mkTag (start + offset) 0)) eqn:Af.
      * right. split; [congruence|]. right; right. rewrite L2. apply tag_not_le. intros C. apply (after_stop_spec e) in C. congruence.
      * left. eexists. rewrite Q. cbn [insert_ev with_q e_q]. rewrite own_cons, (proj2 (of_trigger_spec tr (mkEv _ _ _)) eq_refl), O. split; [reflexivity|]. left. split; [reflexivity|lia].
  - destruct I as [->|I]; [congruence|]. apply (IH x e' H ND2 I); try congruence. rewrite (init_timer_other _ _ _ E N). exact O.
Qed.
End Timer.

Lemma main_timer P kp nd e start duration l0 steps s ls b tr : main_ok P kp nd e start duration l0 steps -> NoDup (p_timers P) -> In tr (p_timers P) ->
  tg_timer (e_tr e tr) = true -> Forall (leaves_alone tr) l0 -> Forall (turn_leaves_alone tr) steps ->
  main P kp nd e start duration l0 steps = Ok (Some (s, ls, b)) ->
  exists x0 rest, ls = x0 :: rest /\ l_tag x0 = mkTag start 0 /\
  (forall x, In x rest -> line_ok tr start (tg_offset (e_tr e tr)) (tg_period (e_tr e tr)) x) /\
  (forall t, due start (tg_offset (e_tr e tr)) (tg_period (e_tr e tr)) t -> tag_lt (mkTag start 0) t -> tag_le t (e_cur (r_env s)) -> exists x, In x rest /\ l_tag x = t).
Proof.
  intros (Hq & Hst & Htl & Hw & Hrun) ND Hin Htm Al0 Al H. unfold main in H. bind_inv H. rename x into e1. bind_inv H. rename x into e2. cbv zeta in H. bind_inv H. rename x into s1.
  destruct (Hrun e1 e2 eq_refl E0) as (Hacts & Hloop). clear Hrun. specialize (Hloop s1 E1).
  assert (K : e_cur e1 = mkTag start 0 /\ e_q e1 = [] /\ e_tr e1 = e_tr e /\ tag_le (e_cur e1) (e_stop e1) /\ tag_ok (e_stop e1)).
  { unfold init_tags in E. destruct (0 <=? duration) eqn:Ed.
    - unfold c_add64 in E. destruct (in_int64b (start + duration)) eqn:Ei; [|discriminate]. cbn [bind] in E. injection E as <-. cbn. repeat (split; [first [reflexivity|assumption]|]). split; [unfold tag_le; cbn; lia|].
      apply in_int64b_spec in Ei. split; cbn; [exact Ei|unfold in_uint32, UINT_MAX; lia].
    - cbn [bind] in E. injection E as <-. cbn. repeat (split; [first [reflexivity|assumption]|]). split; [unfold tag_le, FOREVER_TAG; cbn; lia|]. unfold FOREVER_TAG. tag_consts; cbn; lia. }
  destruct K as (K1 & K2 & K3 & K4 & K5). destruct (init_timers_spec _ _ _ E0) as ((L1 & L2 & L3) & L4).
  { intros u Hu. rewrite K3. apply Hw, Hu. }
  assert (F1 : future_queue e1) by (intros v Hv; rewrite K2 in Hv; destruct Hv). specialize (L4 F1 ltac:(rewrite K1; reflexivity)).
  assert (S0 : sound (mkRt (start_exec e2) (fun _ => false) [] 0)).
  { split; [exact L4|]. cbn. rewrite L1, L2. split; [exact K4|]. split; [rewrite K1; tag_consts; cbn; lia|]. split; [exact K5|reflexivity]. }
  destruct (acts_sound _ _ _ _ _ S0 Hacts E1) as (S1 & B1 & B2 & B3 & B4). cbn [r_env start_exec e_cur e_stop] in B1, B2, B3, B4. rewrite L1, K1 in *.
  destruct (Hw tr Hin) as (Ho & Hp).
  assert (N : exists k, next tr start (tg_offset (e_tr e tr)) (tg_period (e_tr e tr)) e2 k).
  { apply (init_next tr start _ _ Ho Hp (p_timers P) e1 e2 E0 ND Hin); try congruence. rewrite K2. reflexivity. }
  destruct N as (k & N).
  assert (N1 : next tr start (tg_offset (e_tr e tr)) (tg_period (e_tr e tr)) (r_env s1) k).
  { eapply next_later; [exact N|exact (acts_own _ _ _ _ _ _ Al0 E1)|congruence|exact B2]. }
  destruct (continues s1) eqn:Ec.
  - apply (continues_spec _ S1) in Ec. bind_inv H. destruct x as [[[s3 ls3] b3]|]; [|discriminate]. injection H as <- <- <-.
    assert (Htl1 : timers_logical (r_env s1)).
    { intros u. destruct (acts_static _ _ _ _ _ E1 u) as (-> & _ & ->). cbn. rewrite L3, K3. apply Htl. }
    destruct (acts_static _ _ _ _ _ E1 tr) as (St1 & St2 & _). cbn in St1, St2. rewrite L3, K3 in St1, St2. rewrite Htm in St1.
    destruct (loop_timer tr start _ _ Hp P kp nd steps s1 s3 ls3 b3 k S1 Ec Htl1 Hloop St1 St2 Al E2 N1) as (C1 & C2).
    eexists _, ls3. split; [reflexivity|]. split; [reflexivity|]. split; [exact C1|]. rewrite B1 in C2. exact C2.
  - injection H as <- <- <-. eexists _, []. split; [reflexivity|]. split; [reflexivity|]. split; [intros x []|]. intros t _ A B. rewrite B1 in B. apply tag_not_lt in B. contradiction.
Qed.
