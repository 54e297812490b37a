(** Proofs for the threaded main loop: every execution is one of the single-threaded loop. *)
From Verif Require Import Base Tag TagSpec TagProofs Pqueue Token Schedule ScheduleSpec ScheduleProofs Runtime RuntimeSpec RuntimeProofs ThreadedLoop ThreadedLoopSpec.
Open Scope Z_scope.

Definition starved (kp : bool) (e : env) : Prop := kp = true \/ min_tag (e_q e) <> None \/ tag_le (e_stop e) (bump (e_cur e)).
Lemma set_stop_noop e t : tag_le (e_stop e) t -> set_stop e t = e.
Proof. intros H. unfold set_stop. destruct (tag_compare t (e_stop e) <? 0) eqn:E; [|reflexivity]. exfalso. apply tag_compare_ge in H. lia. Qed.
Lemma starve_id kp e : starved kp e -> starve kp e = e.
Proof. intros H. unfold starve. destruct (min_tag (e_q e)) eqn:E; [reflexivity|]. destruct kp; [reflexivity|]. destruct H as [H|[H|H]]; [discriminate|congruence|apply set_stop_noop, H]. Qed.
Lemma starve_q kp e : e_q (starve kp e) = e_q e /\ e_cur (starve kp e) = e_cur e /\ e_tr (starve kp e) = e_tr e /\ e_started (starve kp e) = e_started e /\ tag_le (e_stop (starve kp e)) (e_stop e).
Proof.
  unfold starve. destruct (min_tag (e_q e)); [repeat split; apply tag_le_refl|]. destruct kp; [repeat split; apply tag_le_refl|].
  destruct (set_stop_spec e (bump (e_cur e))) as (A & B & C & D & E & _). auto.
Qed.
Lemma starve_starved kp e : starved kp (starve kp e).
Proof.
  unfold starved. destruct (starve_q kp e) as (-> & -> & _). unfold starve. destruct (min_tag (e_q e)); [right; left; discriminate|]. destruct kp; [left; reflexivity|].
  right; right. apply (set_stop_spec e (bump (e_cur e))).
Qed.
Lemma starve_sound kp s : sound s -> in_range s -> sound (rt_env s (starve kp (r_env s))) /\
  (tag_lt (e_cur (r_env s)) (e_stop (r_env s)) -> tag_lt (e_cur (r_env s)) (e_stop (starve kp (r_env s)))) /\
  (e_cur (r_env s) = e_stop (r_env s) -> starve kp (r_env s) = r_env s).
Proof.
  intros S (_ & Hm). unfold starve. destruct (min_tag (e_q (r_env s))); [split; [exact S|auto]|]. destruct kp; [split; [exact S|auto]|].
  destruct (sound_stop s S Hm) as (S1 & H1). split; [exact S1|]. split; [exact H1|].
  intros E. apply set_stop_noop. rewrite <- E. apply tag_lt_le. apply bump_after; [apply S|exact Hm].
Qed.
Lemma starve_range kp s : in_range s -> in_range (rt_env s (starve kp (r_env s))).
Proof. intros (A & B). unfold in_range. cbn [rt_env r_env]. destruct (starve_q kp (r_env s)) as (-> & -> & _). auto. Qed.
Lemma rt_env_same s : rt_env s (r_env s) = s.
Proof. destruct s; reflexivity. Qed.

(** *** The next tag *)
Lemma next_tag_le e : tag_le (next_tag e) (e_stop e) /\ forall v, In v (e_q e) -> tag_le (next_tag e) (ev_tag v).
Proof.
  unfold next_tag. destruct (min_tag (e_q e)) as [h|] eqn:Eh.
  - destruct (min_tag_some _ _ Eh) as (_ & Hall). destruct (after_stop e h) eqn:Ea.
    + split; [apply tag_le_refl|]. intros v Hv. apply tag_lt_le. apply (tag_lt_le_trans _ h); [apply tag_not_le; intros K; apply after_stop_spec in K; congruence|apply Hall, Hv].
    + apply after_stop_spec in Ea. split; [exact Ea|exact Hall].
  - apply min_tag_none in Eh. rewrite Eh. split; [|intros v []]. destruct (after_stop e FOREVER_TAG) eqn:Ea; [apply tag_le_refl|apply after_stop_spec, Ea].
Qed.
Lemma next_tag_is e : tag_ok (e_stop e) -> next_tag e = e_stop e \/ exists v, In v (e_q e) /\ ev_tag v = next_tag e.
Proof.
  intros Ho. unfold next_tag. destruct (min_tag (e_q e)) as [h|] eqn:Eh.
  - destruct (min_tag_some _ _ Eh) as (Hv & _). destruct (after_stop e h); auto.
  - destruct (after_stop e FOREVER_TAG) eqn:Ea; [left; reflexivity|]. apply after_stop_spec in Ea. left. apply tag_le_antisym; [exact Ea|apply tag_forever_greatest, Ho].
Qed.
Lemma next_tag_anti e e' : tag_ok (e_stop e) -> tag_le (e_stop e') (e_stop e) -> (forall k, In k (keys (e_q e)) -> In k (keys (e_q e'))) -> tag_le (next_tag e') (next_tag e).
Proof.
  intros Ho Hs Hk. destruct (next_tag_le e') as (A & B). destruct (next_tag_is e Ho) as [-> |(v & Hv & <-)].
  - eapply tag_le_trans; eassumption.
  - specialize (Hk (key v) (in_map key _ _ Hv)). apply in_map_iff in Hk. destruct Hk as (w & Ew & Hw). unfold key in Ew. injection Ew as _ <-. apply B, Hw.
Qed.
Lemma tag_le_time a b : tag_le a b -> ttime a <= ttime b.
Proof. unfold tag_le. unfold tag_lt. lia. Qed.

(** *** Popping events does not touch the clock *)
Lemma pop_one_clock P nd now s v s' : pop_one P nd now s v = Ok s' -> same_clock (r_env s) (r_env s').
Proof.
  intros H. unfold pop_one in H. destruct (ev_trig v) as [tr|]; [|injection H as <-; repeat split]. cbv zeta in H. bind_inv H. bind_inv H. bind_inv H. injection H as <-.
  assert (K : same_clock (r_env s) (r_env x)).
  { destruct (_ && _) in E.
    - bind_inv E. injection E as <-. destruct x2 as [e' h]. apply sched_call in E2. apply E2.
    - unfold mark in E. destruct (_ <? INT_MAX); [|discriminate]. injection E as <-. repeat split. }
  exact K.
Qed.
Lemma pop_all_clock P nd now : forall l s s', pop_all P nd now s l = Ok s' -> same_clock (r_env s) (r_env s').
Proof.
  induction l as [|v l IH]; intros s s' H; cbn in H; [injection H as <-; repeat split|]. bind_inv H. destruct (pop_one_clock _ _ _ _ _ _ E) as (A & B & C). destruct (IH _ _ H) as (A' & B' & C'). repeat split; congruence.
Qed.
Lemma enter_tag P kp nd now s s1 evs down : enter P kp nd now s = Ok (Some (s1, evs, down)) -> starved kp (r_env s) -> e_cur (r_env s1) = next_tag (r_env s).
Proof.
  intros H Hst. unfold enter in H. fold (starve kp (r_env s)) in H. rewrite (starve_id _ _ Hst) in H. cbv zeta in H. fold (next_tag (r_env s)) in H.
  destruct (advance nd (r_env s) (next_tag (r_env s))) as [e2|] eqn:Ea; [|discriminate]. bind_inv H. injection H as <- _ _. unfold pop_events in E. cbv zeta in E. bind_inv E. injection E as <-. cbn [fst].
  apply pop_all_clock in E0. destruct E0 as (K & _). rewrite K. cbn. rewrite clear_env. cbn [rt_env r_env]. unfold advance in Ea. destruct (negb nd && _); [discriminate|]. destruct (_ <? 0); [|discriminate]. injection Ea as <-. reflexivity.
Qed.

Section Loop.
Variable P : prog.
Variables kp nd fast : bool.

(** *** The end of [_lf_next_locked] *)
Lemma enter_starve now s : enter P kp nd now (rt_env s (starve kp (r_env s))) = enter P kp nd now s.
Proof.
  unfold enter. cbn [rt_env r_env]. destruct (starve_q kp (r_env s)) as (Q & _).
  pose proof (starve_id kp _ (starve_starved kp (r_env s))) as I. unfold starve at 1 in I. rewrite I. rewrite Q. fold (starve kp (r_env s)).
  cbv zeta. destruct (advance nd _ _); [|reflexivity]. reflexivity.
Qed.
Lemma finish_enter now s : tag_lt (e_cur (r_env (t_rt s))) (e_stop (r_env (t_rt s))) -> starved kp (r_env (t_rt s)) ->
  finish P nd now s = do! x <- enter P kp nd now (t_rt s);
    Ok (match x with None => Fatal | Some (s1, evs, down) => Go (mkTh s1 Run (t_done s) (t_req s) now) [mkEntry (mkLine (e_cur (r_env s1)) evs down) now] end).
Proof.
  intros Hlt Hst. unfold finish, enter. fold (starve kp (r_env (t_rt s))). rewrite (starve_id kp _ Hst). cbv zeta. fold (next_tag (r_env (t_rt s))).
  replace (0 <=? tag_compare (e_cur (r_env (t_rt s))) (e_stop (r_env (t_rt s)))) with false by (apply tag_compare_lt in Hlt; symmetry; apply Z.leb_gt; lia). rewrite andb_false_r.
  destruct (advance nd _ _); [|reflexivity]. destruct (pop_events _ _ _ _) as [[s1 evs]|]; reflexivity.
Qed.
Lemma finish_stop now s : sound (t_rt s) -> e_cur (r_env (t_rt s)) = e_stop (r_env (t_rt s)) ->
  finish P nd now s = Ok (Go (mkTh (t_rt s) Run (t_done s) (t_req s) now) []) /\ next_tag (r_env (t_rt s)) = e_stop (r_env (t_rt s)).
Proof.
  intros (F & _ & _ & O & _) E. set (e := r_env (t_rt s)) in *.
  assert (N : next_tag e = e_stop e).
  { destruct (next_tag_is e O) as [K|(v & Hv & K)]; [exact K|]. specialize (F v Hv). rewrite K, E in F. destruct (next_tag_le e) as (A & _). destruct (tag_lt_irrefl (e_stop e)). eapply tag_lt_le_trans; eassumption. }
  split; [|exact N]. unfold finish. fold e. cbv zeta. rewrite N, E. rewrite (proj2 (tag_compare_eq (e_stop e) (e_stop e)) eq_refl). reflexivity.
Qed.

(** *** One step *)
Record inv (s : th) : Prop := {
  i_sound : sound (t_rt s);
  i_timers : timers_logical (r_env (t_rt s));
  i_phys : fast = false -> ttime (e_cur (r_env (t_rt s))) - t_clk s < MIN_SLEEP_DURATION;
  i_wait : forall u, t_ph s = Wait u -> tag_lt (e_cur (r_env (t_rt s))) (e_stop (r_env (t_rt s))) /\ starved kp (r_env (t_rt s)) /\ ttime (next_tag (r_env (t_rt s))) <= u }.

(** What a step without a new tag does. *)
Inductive quiet (s : th) : top -> th -> Prop :=
| q_ignored o : t_ph s <> Over -> quiet s o s
| q_act a s1 : t_ph s <> Over -> t_ph s1 = t_ph s -> act_ok nd (t_rt s) a -> act P nd (t_rt s) a = Ok (t_rt s1) -> quiet s (TAct a) s1
| q_over now s1 : t_ph s = Run -> t_ph s1 = Over -> t_rt s1 = t_rt s -> e_cur (r_env (t_rt s)) = e_stop (r_env (t_rt s)) -> quiet s (TDone now) s1
| q_again o s1 : t_ph s = Run -> t_ph s1 = Run -> t_rt s1 = t_rt s -> e_cur (r_env (t_rt s)) = e_stop (r_env (t_rt s)) -> quiet s o s1
| q_wait o u s1 : t_ph s <> Over -> (forall a, o <> TAct a) -> t_ph s1 = Wait u -> tag_lt (e_cur (r_env (t_rt s))) (e_stop (r_env (t_rt s))) ->
    t_rt s1 = rt_env (t_rt s) (starve kp (r_env (t_rt s))) -> quiet s o s1.
Definition entered (s s1 : th) (en : entry) : Prop :=
  t_ph s <> Over /\ t_ph s1 = Run /\ tag_lt (e_cur (r_env (t_rt s))) (e_stop (r_env (t_rt s))) /\ in_range (t_rt s) /\
  enter P kp nd (en_clk en) (t_rt s) = Ok (Some (t_rt s1, l_events (en_line en), l_down (en_line en))) /\
  l_tag (en_line en) = e_cur (r_env (t_rt s1)) /\
  (fast = false -> ttime (l_tag (en_line en)) - en_clk en < MIN_SLEEP_DURATION).

(** The end of the wait, below the stop tag. *)
Lemma finish_inv now s x : sound (t_rt s) -> timers_logical (r_env (t_rt s)) -> in_range (t_rt s) ->
  tag_lt (e_cur (r_env (t_rt s))) (e_stop (r_env (t_rt s))) -> starved kp (r_env (t_rt s)) ->
  (fast = false -> ttime (next_tag (r_env (t_rt s))) - now < MIN_SLEEP_DURATION) ->
  finish P nd now s = Ok x ->
  exists s1 en, x = Go s1 [en] /\ inv s1 /\ t_ph s1 = Run /\ en_clk en = now /\
    enter P kp nd now (t_rt s) = Ok (Some (t_rt s1, l_events (en_line en), l_down (en_line en))) /\
    l_tag (en_line en) = e_cur (r_env (t_rt s1)) /\ (fast = false -> ttime (l_tag (en_line en)) - now < MIN_SLEEP_DURATION).
Proof.
  intros S Htl Hr Hlt Hst Hph H. rewrite finish_enter in H by assumption. bind_inv H.
  destruct (enter_spec _ _ _ _ _ _ S Hlt Hr Htl E) as (s1 & evs & down & -> & S1 & A1 & A2 & A3 & A4 & A5 & A6 & A7 & A8).
  injection H as <-. eexists _, _. split; [reflexivity|].
  assert (T : tag_le (e_cur (r_env s1)) (next_tag (r_env (t_rt s)))).
  { destruct (next_tag_is (r_env (t_rt s))) as [-> |(v & Hv & <-)]; [apply S| |apply A3, Hv]. eapply tag_le_trans; [apply S1|exact A2]. }
  apply tag_le_time in T.
  split; [|cbn; split; [reflexivity|]; split; [reflexivity|]; split; [reflexivity|]; split; [reflexivity|]; intros K; specialize (Hph K); lia].
  constructor; cbn [t_rt t_clk t_ph].
  - exact S1.
  - eapply timers_logical_ext; [exact A8|exact Htl].
  - intros K. specialize (Hph K). lia.
  - discriminate.
Qed.

Lemma act_inv s a r q : inv s -> act_ok nd (t_rt s) a -> act P nd (t_rt s) a = Ok r -> inv (mkTh r (t_ph s) (t_done s) q (t_clk s)).
Proof.
  intros [S Htl Hph Hw] Hok E. destruct (act_sound _ _ _ _ _ S Hok E) as (S1 & B1 & B2 & B3 & B4).
  assert (E1 : acts P nd (t_rt s) [a] = Ok r) by (cbn [acts]; rewrite E; reflexivity).
  assert (Hok1 : acts_ok P nd (t_rt s) [a]) by (split; [exact Hok|intros; exact I]).
  pose proof (acts_keys _ _ _ _ _ S Hok1 E1) as Hk.
  constructor; cbn [t_rt t_clk t_ph].
  - exact S1.
  - eapply timers_logical_ext; [exact (acts_static _ _ _ _ _ E1)|exact Htl].
  - rewrite B1. exact Hph.
  - intros u Hu. destruct (Hw u Hu) as (W1 & W2 & W3). split; [apply B3, W1|]. split.
    + destruct W2 as [W2|[W2|W2]]; [left; exact W2| |right; right; rewrite B1; eapply tag_le_trans; eassumption].
      right; left. intros K. apply W2. apply min_tag_none in K. rewrite K in Hk. destruct (e_q (r_env (t_rt s))) as [|v l] eqn:Eq; [reflexivity|]. destruct (Hk (key v)). left; reflexivity.
    + eapply Z.le_trans; [apply tag_le_time; eapply next_tag_anti; [apply S|exact B2|exact Hk]|exact W3].
Qed.

Lemma at_or_below s : sound s -> e_cur (r_env s) = e_stop (r_env s) \/ tag_lt (e_cur (r_env s)) (e_stop (r_env s)).
Proof. intros (_ & K & _). apply tag_le_lt_or_eq in K. tauto. Qed.

Lemma wait_or_finish_inv now s x : sound (t_rt s) -> timers_logical (r_env (t_rt s)) -> in_range (t_rt s) ->
  tag_lt (e_cur (r_env (t_rt s))) (e_stop (r_env (t_rt s))) -> starved kp (r_env (t_rt s)) ->
  (fast = false -> ttime (e_cur (r_env (t_rt s))) - now < MIN_SLEEP_DURATION) ->
  wait_or_finish P nd fast now s = Ok x ->
  (exists s1 u, x = Go s1 [] /\ inv s1 /\ t_ph s1 = Wait u /\ t_rt s1 = t_rt s) \/
  exists s1 en, x = Go s1 [en] /\ inv s1 /\ t_ph s1 = Run /\ en_clk en = now /\
    enter P kp nd now (t_rt s) = Ok (Some (t_rt s1, l_events (en_line en), l_down (en_line en))) /\
    l_tag (en_line en) = e_cur (r_env (t_rt s1)) /\ (fast = false -> ttime (l_tag (en_line en)) - now < MIN_SLEEP_DURATION).
Proof.
  intros S Htl Hr Hlt Hst Hph H. unfold wait_or_finish in H. cbv zeta in H.
  assert (C : (finish P nd now s = Ok x /\ (fast = false -> ttime (next_tag (r_env (t_rt s))) - now < MIN_SLEEP_DURATION)) \/
    x = Go (mkTh (t_rt s) (Wait (ttime (next_tag (r_env (t_rt s))))) (t_done s) (t_req s) now) []).
  { clear Hph. destruct fast; [left; split; [exact H|discriminate]|]. bind_inv H. unfold c_add64 in E. destruct (in_int64b _); [|discriminate]. injection E as <-.
    destruct (_ <? MIN_SLEEP_DURATION) eqn:Ed in H; [left; split; [exact H|intros _; lia]|right; injection H as <-; reflexivity]. }
  destruct C as [(C & D)| ->].
  - right. exact (finish_inv now s x S Htl Hr Hlt Hst D C).
  - left. eexists _, _. split; [reflexivity|]. split; [|split; reflexivity].
    constructor; cbn [t_rt t_clk t_ph]; [exact S|exact Htl|exact Hph|].
    intros u Hu. injection Hu as <-. split; [exact Hlt|]. split; [exact Hst|lia].
Qed.

Lemma step_cases s o x : inv s -> top_ok nd s o -> tstep P kp nd fast s o = Ok x ->
  x = Cannot \/
  (exists s1, x = Go s1 [] /\ inv s1 /\ quiet s o s1) \/
  (exists s1 en, x = Go s1 [en] /\ inv s1 /\ entered s s1 en).
Proof.
  intros I (Hok & Hrun & Hnrun) H. pose proof I as [S Htl Hph Hw]. destruct o as [a|now|now timeout]; cbn [tstep] in H.
  - (* TAct *)
    assert (G : t_ph s <> Over -> forall q, (do! r <- act P nd (t_rt s) a; Ok (Go (mkTh r (t_ph s) (t_done s) q (t_clk s)) [])) = Ok x ->
       x = Cannot \/ (exists s1, x = Go s1 [] /\ inv s1 /\ quiet s (TAct a) s1) \/ (exists s1 en, x = Go s1 [en] /\ inv s1 /\ entered s s1 en)).
    { intros Hno q K. bind_inv K. injection K as <-. right; left. eexists. split; [reflexivity|]. split; [eapply act_inv; eassumption|]. apply q_act; [exact Hno|reflexivity|exact Hok|exact E]. }
    destruct (t_ph s) as [|u|] eqn:Ep.
    + assert (K : Run <> Over) by discriminate. destruct a; try exact (G K _ H).
      destruct (t_req s); [|exact (G K _ H)]. injection H as <-. right; left. exists s. split; [reflexivity|]. split; [exact I|]. apply q_ignored. congruence.
    + assert (K : Wait u <> Over) by discriminate. destruct a; [exact (G K _ H)|injection H as <-; left; reflexivity|].
      destruct (t_req s); [|exact (G K _ H)]. injection H as <-. right; left. exists s. split; [reflexivity|]. split; [exact I|]. apply q_ignored. congruence.
    + left. destruct a; injection H as <-; reflexivity.
  - (* TDone *)
    destruct (t_ph s) as [|u|] eqn:Ep; [|injection H as <-; left; reflexivity|injection H as <-; left; reflexivity].
    specialize (Hrun eq_refl). cbn in Hrun. destruct (now <? t_clk s) eqn:Ec; [injection H as <-; left; reflexivity|].
    set (e := r_env (t_rt s)) in *. cbv zeta in H.
    destruct (starve_sound kp _ S Hrun) as (S1 & Hl1 & Hid). fold e in S1, Hl1, Hid.
    destruct (at_or_below _ S) as [Heq|Hlt]; fold e in Heq || fold e in Hlt.
    + specialize (Hid Heq). right; left. destruct (_ && _) in H.
      * injection H as <-. eexists. split; [reflexivity|]. split; [|apply q_over; try reflexivity; assumption].
        constructor; cbn [t_rt t_clk t_ph]; [exact S|exact Htl|intros K; specialize (Hph K); fold e; lia|discriminate].
      * rewrite Hid in H. unfold e in H. rewrite rt_env_same in H. fold e in H. set (s0 := mkTh _ _ _ _ _) in H.
        destruct (finish_stop now s0 S Heq) as (F & N). unfold wait_or_finish in H. cbv zeta in H.
        assert (W : x = Go (mkTh (t_rt s) Run (e_cur e) (t_req s) now) []).
        { destruct fast; [rewrite F in H; injection H as <-; reflexivity|]. bind_inv H. unfold c_add64 in E. destruct (in_int64b _); [|discriminate]. injection E as <-.
          rewrite N in H. specialize (Hph eq_refl). destruct (_ <? MIN_SLEEP_DURATION) eqn:Ed in H.
          - rewrite F in H. injection H as <-. reflexivity.
          - exfalso. change (next_tag e = e_stop e) in N. fold e in Ed, Hph. rewrite Heq in Hph. rewrite N in Ed. lia. }
        subst x. eexists. split; [reflexivity|]. split; [|apply q_again; try reflexivity; assumption].
        constructor; cbn [t_rt t_clk t_ph]; [exact S|exact Htl|intros K; specialize (Hph K); fold e; lia|discriminate].
    + destruct (_ && _) eqn:Eb in H; [apply tag_compare_lt in Hlt; apply andb_true_iff in Eb; lia|].
      set (s0 := mkTh _ _ _ _ _) in H.
      assert (T0 : timers_logical (r_env (t_rt s0))) by (intros v; cbn; destruct (starve_q kp e) as (_ & _ & -> & _); apply Htl).
      assert (R0 : in_range (t_rt s0)) by (apply starve_range, Hrun).
      assert (L0 : tag_lt (e_cur (r_env (t_rt s0))) (e_stop (r_env (t_rt s0)))) by (cbn; destruct (starve_q kp e) as (_ & -> & _); apply Hl1, Hlt).
      assert (P0 : fast = false -> ttime (e_cur (r_env (t_rt s0))) - now < MIN_SLEEP_DURATION) by (intros K; cbn; destruct (starve_q kp e) as (_ & -> & _); specialize (Hph K); fold e in Hph; lia).
      destruct (wait_or_finish_inv now s0 x S1 T0 R0 L0 (starve_starved kp e) P0 H) as [(s1 & u & -> & I1 & U1 & U2)|(s1 & en & -> & I1 & U1 & U2 & U3 & U4)].
      * right; left. exists s1. split; [reflexivity|]. split; [exact I1|]. apply (q_wait s _ u s1); try assumption; [congruence|discriminate].
      * right; right. exists s1, en. split; [reflexivity|]. split; [exact I1|]. split; [congruence|]. split; [exact U1|]. split; [exact Hlt|]. split; [exact Hrun|].
        cbn [t_rt s0] in U3. unfold e in U3. rewrite enter_starve in U3. rewrite U2. split; [exact U3|exact U4].
  - (* TWake *)
    destruct (t_ph s) as [|u|] eqn:Ep; [injection H as <-; left; reflexivity| |injection H as <-; left; reflexivity].
    specialize (Hnrun ltac:(discriminate)). destruct (Hw u eq_refl) as (Hlt & Hst & Hu). destruct (now <? t_clk s) eqn:Ec; [injection H as <-; left; reflexivity|].
    destruct timeout.
    + destruct (now <? u) eqn:Eu; [injection H as <-; left; reflexivity|].
      destruct (finish_inv now s x S Htl Hnrun Hlt Hst ltac:(intros _; unfold MIN_SLEEP_DURATION; lia) H) as (s1 & en & -> & I1 & U1 & U2 & U3 & U4).
      right; right. exists s1, en. split; [reflexivity|]. split; [exact I1|]. split; [congruence|]. split; [exact U1|]. split; [exact Hlt|]. split; [exact Hnrun|]. rewrite U2. split; [exact U3|exact U4].
    + assert (P0 : fast = false -> ttime (e_cur (r_env (t_rt s))) - now < MIN_SLEEP_DURATION) by (intros K; specialize (Hph K); lia).
      destruct (wait_or_finish_inv now s x S Htl Hnrun Hlt Hst P0 H) as [(s1 & u1 & -> & I1 & U1 & U2)|(s1 & en & -> & I1 & U1 & U2 & U3 & U4)].
      * right; left. exists s1. split; [reflexivity|]. split; [exact I1|]. apply (q_wait s _ u1 s1); try assumption; [congruence|discriminate|]. rewrite (starve_id _ _ Hst), rt_env_same. exact U2.
      * right; right. exists s1, en. split; [reflexivity|]. split; [exact I1|]. split; [congruence|]. split; [exact U1|]. split; [exact Hlt|]. split; [exact Hnrun|]. rewrite U2. split; [exact U3|exact U4].
Qed.

Lemma tops_tail s o ops s1 l : tops_ok P kp nd fast s (o :: ops) -> tstep P kp nd fast s o = Ok (Go s1 l) -> tops_ok P kp nd fast s1 ops.
Proof. intros (_ & H) E. apply (H _ _ E). Qed.

(** *** Every execution is one of the single-threaded loop *)
Definition runl (s : rt) (l : list uact) (steps : list turn) : res (option (rt * list line * bool)) :=
  do! s2 <- acts P nd s l; if continues s2 then loop P kp nd s2 steps else Ok (Some (s2, [], false)).
Definition runl_ok (s : rt) (l : list uact) (steps : list turn) : Prop :=
  acts_ok P nd s l /\ forall s2, acts P nd s l = Ok s2 -> loop_ok P kp nd s2 steps.

Lemma loop_intr s l steps : starved kp (r_env s) -> loop P kp nd s (TIntr l :: steps) = do! s1 <- acts P nd s l; loop P kp nd s1 steps.
Proof. intros H. cbn [loop]. fold (starve kp (r_env s)). cbv zeta. rewrite (starve_id _ _ H), rt_env_same. reflexivity. Qed.
Lemma loop_ok_intr s l steps : starved kp (r_env s) -> in_range s -> acts_ok P nd s l -> (forall s1, acts P nd s l = Ok s1 -> loop_ok P kp nd s1 steps) -> loop_ok P kp nd s (TIntr l :: steps).
Proof. intros H R A L. cbn [loop_ok]. fold (starve kp (r_env s)). cbv zeta. rewrite (starve_id _ _ H), rt_env_same. auto. Qed.

Lemma loop_step now s s1 evs down l steps r : enter P kp nd now s = Ok (Some (s1, evs, down)) -> 
  runl s1 l steps = Ok (Some r) -> loop P kp nd s (TStep now l :: steps) = Ok (Some (fst (fst r), mkLine (e_cur (r_env s1)) evs down :: snd (fst r), snd r)).
Proof.
  intros E H. cbn [loop]. rewrite E. cbn [bind]. unfold runl in H. destruct (acts P nd s1 l) as [s2|]; [|discriminate H]. cbn [bind] in *. destruct (continues s2).
  - rewrite H. cbn [bind]. destruct r as [[s3 tr] b]. reflexivity.
  - injection H as <-. reflexivity.
Qed.

Lemma refines : forall ops s r, inv s -> tops_ok P kp nd fast s ops -> trun P kp nd fast s ops = Ok r ->
  r = Cannot \/ exists s' es, r = Go s' es /\ inv s' /\ (t_ph s' = Over -> t_ph s <> Over -> continues (t_rt s') = false) /\
    match t_ph s with
    | Run => exists l steps, runl_ok (t_rt s) l steps /\ runl (t_rt s) l steps = Ok (Some (t_rt s', trace es, continues (t_rt s')))
    | Wait _ => exists steps, loop_ok P kp nd (t_rt s) steps /\ loop P kp nd (t_rt s) steps = Ok (Some (t_rt s', trace es, continues (t_rt s')))
    | Over => es = [] /\ t_rt s' = t_rt s
    end.
Proof.
  induction ops as [|o ops IH]; intros s r Hi Hok H; cbn [trun] in H.
  - injection H as <-. right. exists s, []. split; [reflexivity|]. split; [exact Hi|]. split; [congruence|]. destruct (t_ph s) as [|u|] eqn:Ep.
    + exists [], []. split; [split; [exact I|intros; exact I]|]. unfold runl. cbn [acts bind loop]. destruct (continues (t_rt s)); reflexivity.
    + exists []. split; [exact I|]. cbn [loop]. destruct (i_wait _ Hi u Ep) as (W & _). apply (continues_spec _ (i_sound _ Hi)) in W. rewrite W. reflexivity.
    + split; reflexivity.
  - bind_inv H. rename x into y. pose proof Hok as (Hop & _). pose proof Hop as (Hact & Hrg & Hnr).
    destruct (step_cases _ _ _ Hi Hop E) as [-> |[(s1 & -> & Hi1 & Hq)|(s1 & en & -> & Hi1 & Hen)]].
    + injection H as <-. left. reflexivity.
    + bind_inv H. specialize (IH s1 x Hi1 (tops_tail _ _ _ _ _ Hok E) E0). destruct IH as [-> |(s' & es & -> & Hi' & Hov & IH)]; [injection H as <-; left; reflexivity|].
      injection H as <-. right. exists s', es. split; [reflexivity|]. split; [exact Hi'|].
      destruct Hq as [o Q1|a s1 Q1 Q2 Q3 Q4|now s1 Q1 Q2 Q3 Q4|o s1 Q1 Q2 Q3 Q4|o u s1 Q1 Q2 Q3 Q4 Q5].
      * split; [exact Hov|exact IH].
      * split; [intros K _; apply Hov; [exact K|congruence]|]. rewrite Q2 in IH. destruct (t_ph s) as [|u|] eqn:Ep.
        -- destruct IH as (l & steps & (A1 & A2) & A3). exists (a :: l), steps. unfold runl, runl_ok in *. cbn [acts acts_ok]. rewrite Q4. cbn [bind]. split; [|exact A3].
           split; [split; [exact Q3|intros s2 K; injection K as <-; exact A1]|exact A2].
        -- destruct IH as (steps & A1 & A2). exists (TIntr [a] :: steps). destruct (i_wait _ Hi u Ep) as (_ & W & _). specialize (Hnr ltac:(discriminate)).
           split; [apply loop_ok_intr; [exact W|exact Hnr|split; [exact Q3|intros; exact I]|]|rewrite loop_intr by exact W]; cbn [acts]; rewrite Q4; cbn [bind].
           ++ intros s2 K. injection K as <-. exact A1.
           ++ exact A2.
        -- destruct (Q1 eq_refl).
      * rewrite Q2 in IH. destruct IH as (-> & Es). rewrite Q1.
        assert (C : continues (t_rt s') = false) by (rewrite Es, Q3; destruct (continues (t_rt s)) eqn:C; [|reflexivity]; apply (continues_spec _ (i_sound _ Hi)) in C; rewrite Q4 in C; destruct (tag_lt_irrefl _ C)).
        split; [intros; exact C|]. rewrite C. exists [], []. split; [split; [exact I|intros; exact I]|]. unfold runl. cbn [acts bind loop]. rewrite Es, Q3 in *. rewrite C. reflexivity.
      * split; [intros K _; apply Hov; [exact K|congruence]|]. rewrite Q1. rewrite Q2, Q3 in IH. exact IH.
      * split; [intros K _; apply Hov; [exact K|congruence]|]. rewrite Q3, Q5 in IH. destruct IH as (steps & A1 & A2).
        assert (R : in_range (t_rt s)) by (destruct (t_ph s) eqn:Ep; [destruct o as [a| |]; [destruct (Q2 a eq_refl)|apply Hrg; reflexivity..]|apply Hnr; discriminate|destruct (Q1 eq_refl)]).
        assert (B : loop_ok P kp nd (t_rt s) (TIntr [] :: steps) /\ loop P kp nd (t_rt s) (TIntr [] :: steps) = Ok (Some (t_rt s', trace es, continues (t_rt s')))).
        { split; [|exact A2]. cbn [loop_ok]. split; [exact R|]. split; [exact I|]. intros s2 K. injection K as <-. exact A1. }
        destruct (t_ph s) as [|u0|] eqn:Ep; [|exists (TIntr [] :: steps); exact B|destruct (Q1 eq_refl)].
        exists [], (TIntr [] :: steps). split; [split; [exact I|]|].
        -- intros s2 K. injection K as <-. apply B.
        -- unfold runl. cbn [acts bind]. apply (continues_spec _ (i_sound _ Hi)) in Q4. rewrite Q4. apply B.
    + bind_inv H. specialize (IH s1 x Hi1 (tops_tail _ _ _ _ _ Hok E) E0). destruct IH as [-> |(s' & es & -> & Hi' & Hov & IH)]; [injection H as <-; left; reflexivity|].
      injection H as <-. right. exists s', (en :: es). split; [reflexivity|]. split; [exact Hi'|]. destruct Hen as (N1 & N2 & N3 & N4 & N5 & N6 & _).
      split; [intros K _; apply Hov; [exact K|congruence]|]. rewrite N2 in IH. destruct IH as (l & steps & (A1 & A2) & A3).
      assert (B : loop_ok P kp nd (t_rt s) (TStep (en_clk en) l :: steps) /\ loop P kp nd (t_rt s) (TStep (en_clk en) l :: steps) = Ok (Some (t_rt s', trace (en :: es), continues (t_rt s')))).
      { split.
        - cbn [loop_ok]. split; [exact N4|]. intros s2 evs down K. rewrite N5 in K. injection K as <- _ _. split; [exact A1|exact A2].
        - rewrite (loop_step _ _ _ _ _ _ _ _ N5 A3). cbn [fst snd trace map]. rewrite <- N6. destruct en as [[t evs d] c]; reflexivity. }
      destruct (t_ph s) as [|u|] eqn:Ep; [|eexists; exact B|destruct (N1 eq_refl)].
      exists [], (TStep (en_clk en) l :: steps). split; [split; [exact I|]|].
      * intros s2 K. injection K as <-. apply B.
      * unfold runl. cbn [acts bind]. apply (continues_spec _ (i_sound _ Hi)) in N3. rewrite N3. apply B.
Qed.

(** *** Physical time *)
Lemma entries_physical : forall ops s s' es, inv s -> tops_ok P kp nd fast s ops -> trun P kp nd fast s ops = Ok (Go s' es) ->
  fast = false -> forall en, In en es -> ttime (l_tag (en_line en)) - en_clk en < MIN_SLEEP_DURATION.
Proof.
  induction ops as [|o ops IH]; intros s s' es Hi Hok H Hf en Hen; cbn [trun] in H; [injection H as _ <-; destruct Hen|].
  bind_inv H. pose proof Hok as (Hop & _). destruct (step_cases _ _ _ Hi Hop E) as [-> |[(s1 & -> & Hi1 & Hq)|(s1 & en1 & -> & Hi1 & Hen1)]]; [discriminate| |];
    bind_inv H; destruct x as [s2 l2| |]; try discriminate; injection H as _ <-.
  - exact (IH s1 s2 l2 Hi1 (tops_tail _ _ _ _ _ Hok E) E0 Hf en Hen).
  - destruct Hen as [<-|Hen]; [apply Hen1, Hf|exact (IH s1 s2 l2 Hi1 (tops_tail _ _ _ _ _ Hok E) E0 Hf en Hen)].
Qed.

(** *** Events *)
Lemma events_kept : forall ops s s' es, inv s -> tops_ok P kp nd fast s ops -> trun P kp nd fast s ops = Ok (Go s' es) ->
  forall k, In k (keys (e_q (r_env (t_rt s)))) -> In k (keys (e_q (r_env (t_rt s')))) \/ exists en, In en es /\ l_tag (en_line en) = snd k /\ In k (keys (l_events (en_line en))).
Proof.
  induction ops as [|o ops IH]; intros s s' es Hi Hok H k Hk; cbn [trun] in H; [injection H as <- <-; left; exact Hk|].
  bind_inv H. pose proof Hok as (Hop & _). destruct (step_cases _ _ _ Hi Hop E) as [-> |[(s1 & -> & Hi1 & Hq)|(s1 & en1 & -> & Hi1 & Hen1)]]; [discriminate| |];
    bind_inv H; destruct x as [s2 l2| |]; try discriminate; injection H as <- <-; pose proof (IH s1 s2 l2 Hi1 (tops_tail _ _ _ _ _ Hok E) E0 k) as IH1.
  - apply IH1. destruct Hq as [o Q1|a s1 Q1 Q2 Q3 Q4|now s1 Q1 Q2 Q3 Q4|o s1 Q1 Q2 Q3 Q4|o u s1 Q1 Q2 Q3 Q4 Q5].
    + exact Hk.
    + assert (E1 : acts P nd (t_rt s) [a] = Ok (t_rt s1)) by (cbn [acts]; rewrite Q4; reflexivity).
      assert (O1 : acts_ok P nd (t_rt s) [a]) by (split; [exact Q3|intros; exact I]).
      exact (acts_keys _ _ _ _ _ (i_sound _ Hi) O1 E1 k Hk).
    + rewrite Q3. exact Hk.
    + rewrite Q3. exact Hk.
    + rewrite Q5. cbn [rt_env r_env]. destruct (starve_q kp (r_env (t_rt s))) as (-> & _). exact Hk.
  - destruct Hen1 as (_ & _ & N3 & N4 & N5 & N6 & _).
    destruct (enter_spec _ _ _ _ _ _ (i_sound _ Hi) N3 N4 (i_timers _ Hi) N5) as (s3 & evs & down & K & S1 & A1 & A2 & A3 & A4 & A5 & A6 & _). injection K as <- <- <-.
    apply in_map_iff in Hk. destruct Hk as (v & <- & Hv). destruct (tag_lt_trichotomy (ev_tag v) (e_cur (r_env (t_rt s1)))) as [K|[K|K]].
    + destruct (tag_lt_irrefl (ev_tag v)). eapply tag_lt_le_trans; [exact K|apply A3, Hv].
    + right. exists en1. split; [left; reflexivity|]. split; [cbn; congruence|]. apply in_map, A5. auto.
    + destruct IH1 as [B|(en & B1 & B2)]; [|left; exact B|right; exists en; split; [right; exact B1|exact B2]].
      apply in_map, A6; [exact Hv|]. intros Q. rewrite Q in K. destruct (tag_lt_irrefl _ K).
Qed.
End Loop.

(** *** The start *)
Lemma start_inv P kp nd fast e now d ops e1 e2 : tmain_ok P kp nd fast e now d ops -> init_tags e now d = Ok e1 -> init_timers e1 (p_timers P) = Ok e2 ->
  inv kp fast (mkTh (mkRt (start_exec e2) (fun _ => false) [] 0) Run NEVER_TAG false now) /\ e_cur e2 = mkTag now 0.
Proof.
  intros (Hq & Hst & Htl & Hw & _) E E0.
  assert (K : e_cur e1 = mkTag now 0 /\ e_q e1 = [] /\ e_tr e1 = e_tr e /\ tag_le (e_cur e1) (e_stop e1) /\ tag_ok (e_stop e1)).
  { unfold init_tags in E. destruct (0 <=? d) eqn:Ed.
    - unfold c_add64 in E. destruct (in_int64b (now + d)) eqn:Ei; [|discriminate]. cbn [bind] in E. injection E as <-. cbn. repeat (split; [first [reflexivity|assumption]|]). split; [unfold tag_le; cbn; lia|].
      apply in_int64b_spec in Ei. split; cbn; [exact Ei|unfold in_uint32, UINT_MAX; lia].
    - cbn [bind] in E. injection E as <-. cbn. repeat (split; [first [reflexivity|assumption]|]). split; [unfold tag_le, FOREVER_TAG; cbn; lia|]. unfold FOREVER_TAG. tag_consts; cbn; lia. }
  destruct K as (K1 & K2 & K3 & K4 & K5). destruct (init_timers_spec _ _ _ E0) as ((L1 & L2 & L3) & L4).
  { intros tr Htr. rewrite K3. apply Hw, Htr. }
  assert (F1 : future_queue e1) by (intros v Hv; rewrite K2 in Hv; destruct Hv). specialize (L4 F1 ltac:(rewrite K1; reflexivity)).
  split; [|congruence]. constructor; cbn [t_rt t_ph t_clk r_env start_exec e_cur].
  - split; [exact L4|]. cbn. rewrite L1, L2. split; [exact K4|]. split; [rewrite K1; tag_consts; cbn; lia|]. split; [exact K5|reflexivity].
  - intros u. cbn. rewrite L3, K3. apply Htl.
  - intros _. rewrite L1, K1. cbn. unfold MIN_SLEEP_DURATION. lia.
  - discriminate.
Qed.

(** *** A checker, for examples *)
Definition top_okb (nd : bool) (s : th) (o : top) : bool :=
  match o with TAct a => act_okb nd (t_rt s) a | _ => true end &&
  match t_ph s, o with Run, TAct _ => true | _, _ => in_rangeb (t_rt s) end.
Fixpoint tops_okb (P : prog) (kp nd fast : bool) (s : th) (ops : list top) : bool :=
  match ops with
  | [] => true
  | o :: r => top_okb nd s o && match tstep P kp nd fast s o with Ok (Go s1 _) => tops_okb P kp nd fast s1 r | _ => true end
  end.
Lemma tops_okb_ok P kp nd fast : forall ops s, tops_okb P kp nd fast s ops = true -> tops_ok P kp nd fast s ops.
Proof.
  induction ops as [|o ops IH]; intros s H; [exact I|]. cbn [tops_okb] in H. apply andb_true_iff in H. destruct H as (H1 & H2). split.
  - unfold top_okb in H1. apply andb_true_iff in H1. destruct H1 as (H1 & H3). split; [|split].
    + destruct o as [a| |]; try exact I. assert (K : acts_okb P nd (t_rt s) [a] = true) by (cbn [acts_okb]; rewrite H1; destruct (act _ _ _ _); reflexivity).
      apply acts_okb_ok in K. apply K.
    + intros E. rewrite E in H3. destruct o; [exact I|apply in_rangeb_ok, H3..].
    + intros N. destruct (t_ph s); [destruct (N eq_refl)|apply in_rangeb_ok, H3..].
  - intros s1 l E. rewrite E in H2. apply IH, H2.
Qed.
