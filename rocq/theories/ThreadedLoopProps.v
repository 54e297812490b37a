(** C67: the main loop of threaded programs.  While it waits for physical time the mutex is free, and other threads
    schedule events and request stops; yet every execution is one that the single-threaded loop of C25 and C27 allows. *)
From Verif Require Import Base Tag TagSpec TagProofs Pqueue Token Schedule ScheduleSpec ScheduleProofs Runtime RuntimeSpec RuntimeProofs RuntimeProps ThreadedLoop ThreadedLoopSpec ThreadedLoopProofs.
Open Scope Z_scope.

(** ** C67.  Whatever the interleaving of reactions, other threads, wake-ups and clock readings, the program does not
    stop with an error, and there are actions for the single-threaded program under which it goes through the same state, with the same
    trace.  When the workers have ended, the single-threaded program has ended, too. *)
Theorem C67_refines : forall P kp nd fast e start d ops r, tmain_ok P kp nd fast e start d ops ->
  tmain P kp nd fast e start d ops = Ok r ->
  r = Cannot \/ exists s es l0 steps, r = Go s es /\ main_ok P kp nd e start d l0 steps /\
    main P kp nd e start d l0 steps = Ok (Some (t_rt s, trace es, continues (t_rt s))) /\
    (t_ph s = Over -> continues (t_rt s) = false).
Proof.
  intros P kp nd fast e start d ops r Hok H. unfold tmain in H. bind_inv H. rename x into e1. bind_inv H. rename x into e2. cbv zeta in H. bind_inv H. rename x into y.
  destruct (start_inv _ _ _ _ _ _ _ _ _ _ Hok E E0) as (Hi & _). pose proof Hok as (K1 & K2 & K3 & K4 & Hops). specialize (Hops _ _ E E0).
  destruct (refines _ _ _ _ _ _ _ Hi Hops E1) as [-> |(s' & es & -> & Hi' & Hov & l & steps & Hl & Hr)]; [left; injection H as <-; reflexivity|].
  right. injection H as <-. eexists _, _, l, steps. split; [reflexivity|]. split; [|split; [|intros K; apply Hov; [exact K|discriminate]]].
  - split; [exact K1|]. split; [exact K2|]. split; [exact K3|]. split; [exact K4|]. intros f1 f2 F1 F2. rewrite E in F1. injection F1 as <-. rewrite E0 in F2. injection F2 as <-. exact Hl.
  - unfold main. rewrite E. cbn [bind]. rewrite E0. cbn [bind]. cbv zeta. unfold runl in Hr. cbn [t_rt] in Hr. destruct (acts P nd _ l) as [s2|]; [|discriminate Hr]. cbn [bind] in *.
    destruct (continues s2); [rewrite Hr; reflexivity|]. injection Hr as X1 X2 X3. unfold trace in *. cbn [map en_line]. rewrite <- X2, <- X3, X1. reflexivity.
Qed.
Print Assumptions C67_refines.

(** So tags are entered in strictly increasing order, starting with the start tag, each with events of that tag only; none is after the stop
    tag; and shutdown happens at most once, at the stop tag, which is the last tag, and exactly once when the workers have ended. *)
Theorem C67_execution : forall P kp nd fast e start d ops s es, tmain_ok P kp nd fast e start d ops ->
  tmain P kp nd fast e start d ops = Ok (Go s es) ->
  (exists x rest, trace es = x :: rest /\ l_tag x = mkTag start 0 /\ increasing (mkTag start 0) rest) /\
  (forall x v, In x (trace es) -> In v (l_events x) -> ev_tag v = l_tag x) /\
  (forall x, In x (trace es) -> tag_le (l_tag x) (e_stop (r_env (t_rt s)))) /\
  (forall pre x post, trace es = pre ++ x :: post -> l_down x = true -> post = [] /\ l_tag x = e_stop (r_env (t_rt s)) /\ forall y, In y pre -> l_down y = false) /\
  (t_ph s = Over -> exists x, In x (trace es) /\ l_down x = true).
Proof.
  intros P kp nd fast e start d ops s es Hok H. destruct (C67_refines _ _ _ _ _ _ _ _ _ Hok H) as [K|(s1 & es1 & l0 & steps & K & Hm & Hr & Hov)]; [discriminate|]. injection K as <- <-.
  destruct (C25_execution _ _ _ _ _ _ _ _ _ Hm Hr) as (s2 & tr & b & x & rest & K & A1 & A2 & A3 & A4). injection K as <- <- <-.
  destruct (C27_shutdown_once _ _ _ _ _ _ _ _ _ _ _ Hm Hr) as (B1 & B2 & B3).
  split; [exists x, rest; auto|]. split; [exact A4|]. split; [exact B1|]. split.
  - intros pre y post E Hd. destruct (continues (t_rt s)).
    + rewrite (B2 eq_refl y) in Hd; [discriminate|]. rewrite E, in_app_iff. right; left; reflexivity.
    + destruct (B3 eq_refl) as (pre1 & z & E1 & Z1 & Z2 & Z3). rewrite E in E1. destruct post as [|w post] using rev_ind.
      * apply app_inj_tail in E1. destruct E1 as (-> & ->). auto.
      * rewrite app_comm_cons, app_assoc in E1. apply app_inj_tail in E1. destruct E1 as (E1 & _). rewrite (Z3 y) in Hd; [discriminate|]. rewrite <- E1, in_app_iff. right; left; reflexivity.
  - intros K. destruct (B3 (Hov K)) as (pre & y & E & _ & Hd & _). exists y. rewrite E, in_app_iff. split; [right; left; reflexivity|exact Hd].
Qed.
Print Assumptions C67_execution.

(** No event is lost, also if it is scheduled by another thread during the wait: one pending at some point is handled at its own
    tag, or still pending later. *)
Theorem C67_no_event_lost : forall P kp nd fast e start d ops s es ops' s' es' v, tmain_ok P kp nd fast e start d ops ->
  tmain P kp nd fast e start d ops = Ok (Go s es) -> tops_ok P kp nd fast s ops' -> trun P kp nd fast s ops' = Ok (Go s' es') ->
  In v (e_q (r_env (t_rt s))) ->
  (exists w, In w (e_q (r_env (t_rt s'))) /\ ev_trig w = ev_trig v /\ ev_tag w = ev_tag v /\ tag_lt (e_cur (r_env (t_rt s'))) (ev_tag v)) \/
  (exists x w, In x (trace es') /\ l_tag x = ev_tag v /\ In w (l_events x) /\ ev_trig w = ev_trig v /\ ev_tag w = ev_tag v).
Proof.
  intros P kp nd fast e start d ops s es ops' s' es' v Hok H Hok' H' Hv. unfold tmain in H. bind_inv H. rename x into e1. bind_inv H. rename x into e2. cbv zeta in H. bind_inv H. rename x into y.
  destruct (start_inv _ _ _ _ _ _ _ _ _ _ Hok E E0) as (Hi & _). pose proof Hok as (_ & _ & _ & _ & Hops). specialize (Hops _ _ E E0).
  destruct (refines _ _ _ _ _ _ _ Hi Hops E1) as [-> |(s1 & es1 & -> & Hi1 & _)]; [discriminate|]. injection H as <- _.
  assert (Hi' : inv kp fast s') by (destruct (refines _ _ _ _ _ _ _ Hi1 Hok' H') as [K|(s2 & es2 & K & Hi2 & _)]; [discriminate|injection K as <- _; exact Hi2]).
  destruct (events_kept _ _ _ _ _ _ _ _ Hi1 Hok' H' (key v) (in_map key _ _ Hv)) as [Q|(en & Q1 & Q2 & Q3)].
  - left. apply in_map_iff in Q. destruct Q as (w & Ek & Hw). unfold key in Ek. injection Ek as F1 F2. exists w. repeat (split; [assumption|]). rewrite <- F2. destruct (i_sound _ _ _ Hi') as (F & _). apply F, Hw.
  - right. apply in_map_iff in Q3. destruct Q3 as (w & Ek & Hw). unfold key in Ek. injection Ek as F1 F2. exists (en_line en), w. split; [apply in_map, Q1|auto].
Qed.
Print Assumptions C67_no_event_lost.

(** Unless the program is run with -fast, a tag is entered no more than 10 microseconds (the shortest wait) before physical time reaches it. *)
Theorem C67_physical : forall P kp nd e start d ops s es en, tmain_ok P kp nd false e start d ops ->
  tmain P kp nd false e start d ops = Ok (Go s es) -> In en es -> ttime (l_tag (en_line en)) < en_clk en + 10000.
Proof.
  intros P kp nd e start d ops s es en Hok H Hen. unfold tmain in H. bind_inv H. rename x into e1. bind_inv H. rename x into e2. cbv zeta in H. bind_inv H. rename x into y.
  destruct (start_inv _ _ _ _ _ _ _ _ _ _ Hok E E0) as (Hi & Hc). pose proof Hok as (_ & _ & _ & _ & Hops). specialize (Hops _ _ E E0).
  destruct y as [s1 es1| |]; try discriminate. injection H as <- <-. destruct Hen as [<-|Hen].
  - cbn [en_line l_tag en_clk]. rewrite Hc. cbn. lia.
  - pose proof (entries_physical _ _ _ _ _ _ _ _ Hi Hops E1 eq_refl en Hen) as K. unfold MIN_SLEEP_DURATION in K. lia.
Qed.
Print Assumptions C67_physical.

(** Nothing is skipped and nothing waits for ever: when the wait times out, the tag entered is the earliest one that is pending, or the stop
    tag if that is earlier. *)
Theorem C67_timeout : forall P kp nd fast e start d ops s es u now x, tmain_ok P kp nd fast e start d ops ->
  tmain P kp nd fast e start d ops = Ok (Go s es) -> t_ph s = Wait u -> in_range (t_rt s) -> t_clk s <= now -> u <= now ->
  tstep P kp nd fast s (TWake now true) = Ok x ->
  exists s1 en, x = Go s1 [en] /\ tag_lt (e_cur (r_env (t_rt s))) (l_tag (en_line en)) /\ tag_le (l_tag (en_line en)) (e_stop (r_env (t_rt s))) /\
    (forall v, In v (e_q (r_env (t_rt s))) -> tag_le (l_tag (en_line en)) (ev_tag v)) /\
    (l_tag (en_line en) = e_stop (r_env (t_rt s)) \/ exists v, In v (e_q (r_env (t_rt s))) /\ ev_tag v = l_tag (en_line en)) /\
    (forall v, In v (l_events (en_line en)) <-> In v (e_q (r_env (t_rt s))) /\ ev_tag v = l_tag (en_line en)).
Proof.
  intros P kp nd fast e start d ops s es u now x Hok H Hu Hr Hc Hnow Hx. unfold tmain in H. bind_inv H. rename x0 into e1. bind_inv H. rename x0 into e2. cbv zeta in H. bind_inv H. rename x0 into y.
  destruct (start_inv _ _ _ _ _ _ _ _ _ _ Hok E E0) as (Hi & _). pose proof Hok as (_ & _ & _ & _ & Hops). specialize (Hops _ _ E E0).
  destruct (refines _ _ _ _ _ _ _ Hi Hops E1) as [-> |(s1 & es1 & -> & Hi1 & _)]; [discriminate|]. injection H as <- _.
  destruct (i_wait _ _ _ Hi1 u Hu) as (Hlt & Hst & Hle). cbn [tstep] in Hx. rewrite Hu in Hx.
  destruct (now <? t_clk s1) eqn:B1; [lia|]. destruct (now <? u) eqn:B2; [lia|].
  destruct (finish_inv P kp nd fast now s1 x (i_sound _ _ _ Hi1) (i_timers _ _ _ Hi1) Hr Hlt Hst ltac:(intros _; unfold MIN_SLEEP_DURATION; lia) Hx) as (s2 & en & -> & I2 & U1 & U2 & U3 & U4 & _).
  destruct (enter_spec _ _ _ _ _ _ (i_sound _ _ _ Hi1) Hlt Hr (i_timers _ _ _ Hi1) U3) as (s3 & evs & down & K & S1 & A1 & A2 & A3 & A4 & A5 & _). injection K as <- <- <-.
  exists s2, en. rewrite U4. split; [reflexivity|]. split; [exact A1|].
  assert (A2' : tag_le (e_cur (r_env (t_rt s2))) (e_stop (r_env (t_rt s1)))) by (eapply tag_le_trans; [apply S1|exact A2]).
  split; [exact A2'|]. split; [exact A3|]. split; [|exact A5].
  destruct A4 as [A4|A4]; [|right; exact A4]. 
  pose proof (enter_tag _ _ _ _ _ _ _ _ U3 Hst) as T. rewrite T. apply next_tag_is, (i_sound _ _ _ Hi1).
Qed.
Print Assumptions C67_timeout.

(** At the stop tag the program ends: the first or second time that the reactions are finished. *)
Theorem C67_ends : forall P kp nd fast e start d ops s es, tmain_ok P kp nd fast e start d ops ->
  tmain P kp nd fast e start d ops = Ok (Go s es) -> t_ph s = Run -> in_range (t_rt s) -> e_cur (r_env (t_rt s)) = e_stop (r_env (t_rt s)) ->
  forall now1 now2, t_clk s <= now1 <= now2 -> (fast = false -> in_int64 (ttime (e_stop (r_env (t_rt s))) - now1)) ->
  (exists s1, trun P kp nd fast s [TDone now1] = Ok (Go s1 []) /\ t_ph s1 = Over) \/ (exists s2, trun P kp nd fast s [TDone now1; TDone now2] = Ok (Go s2 []) /\ t_ph s2 = Over).
Proof.
  intros P kp nd fast e start d ops s es Hok H Hp Hr Heq now1 now2 (C1 & C2) Hf. unfold tmain in H. bind_inv H. rename x into e1. bind_inv H. rename x into e2. cbv zeta in H. bind_inv H. rename x into y.
  destruct (start_inv _ _ _ _ _ _ _ _ _ _ Hok E E0) as (Hi & _). pose proof Hok as (_ & _ & _ & _ & Hops). specialize (Hops _ _ E E0).
  destruct (refines _ _ _ _ _ _ _ Hi Hops E1) as [-> |(s1 & es1 & -> & Hi1 & _)]; [discriminate|]. injection H as <- _.
  destruct (starve_sound kp _ (i_sound _ _ _ Hi1) Hr) as (_ & _ & Hid). specialize (Hid Heq).
  assert (Hge : (0 <=? tag_compare (e_cur (r_env (t_rt s1))) (e_stop (r_env (t_rt s1)))) = true) by (apply Z.leb_le, tag_compare_ge; rewrite Heq; apply tag_le_refl).
  assert (Hd : forall q now, t_ph q = Run -> t_rt q = t_rt s1 -> t_clk q <= now -> t_done q = e_cur (r_env (t_rt s1)) -> tstep P kp nd fast q (TDone now) = Ok (Go (mkTh (t_rt s1) Over (t_done q) (t_req q) now) [])).
  { intros q now Q1 Q2 Q3 Q4. cbn [tstep]. rewrite Q1, Q2, Q4, Hge. destruct (now <? t_clk q) eqn:B; [lia|]. cbv zeta. rewrite (proj2 (tag_compare_eq _ _) eq_refl). reflexivity. }
  destruct (tag_compare (t_done s1) (e_cur (r_env (t_rt s1))) =? 0) eqn:Ed.
  - left. apply Z.eqb_eq, tag_compare_eq in Ed. eexists. cbn [trun]. rewrite (Hd s1 now1 Hp eq_refl C1 Ed). cbn [bind]. split; reflexivity.
  - right. set (q := mkTh (t_rt s1) Run (e_cur (r_env (t_rt s1))) (t_req s1) now1).
    assert (T1 : tstep P kp nd fast s1 (TDone now1) = Ok (Go q [])).
    { cbn [tstep]. rewrite Hp. destruct (now1 <? t_clk s1) eqn:B; [lia|]. cbv zeta. rewrite Ed. cbn [andb]. rewrite Hid, rt_env_same. fold q.
      destruct (finish_stop P nd now1 q (i_sound _ _ _ Hi1) Heq) as (F & N). unfold wait_or_finish. cbv zeta. pose proof (i_phys _ _ _ Hi1) as Hph. destruct fast; [exact F|]. rewrite N.
      change (r_env (t_rt q)) with (r_env (t_rt s1)). specialize (Hf eq_refl). specialize (Hph eq_refl). rewrite Heq in Hph. unfold c_add64.
      replace (ttime (e_stop (r_env (t_rt s1))) + - now1) with (ttime (e_stop (r_env (t_rt s1))) - now1) by lia. rewrite (proj2 (in_int64b_spec _) Hf). cbn [bind].
      destruct (_ <? MIN_SLEEP_DURATION) eqn:B3; [exact F|]. exfalso. lia. }
    eexists. cbn [trun]. rewrite T1. cbn [bind]. rewrite (Hd q now2 eq_refl eq_refl C2 eq_refl). cbn [bind]. split; reflexivity.
Qed.
Print Assumptions C67_ends.

(** *** Examples: a timer of period 40000 (trigger 0), a logical action (trigger 1, field 1) and a port (field 2).  The program
    starts at time 100000 with a timeout of 90000.  During the first wait another thread schedules the action; later it requests a stop. *)
Definition tx_trigs (n : nat) : trig := if Nat.eqb n 0 then mkTrig true false 0 40000 PDefer NEVER_TAG else mkTrig false false 0 0 PDefer NEVER_TAG.
Definition tx_env : env := mkEnv NEVER_TAG NEVER_TAG [] tx_trigs 1 (tst_init (fun _ => mkTmpl None 4 1 false)) false.
Definition tx_ops : list top :=
  [TAct (ASched 100100 1 0 None); TDone 100200; TAct (ASet 2); TDone 101000; TWake 110000 false; TAct (ASched 112000 1 28000 None); TWake 113000 false;
   TWake 128001 true; TDone 128500; TWake 140500 true; TAct AStop; TAct AStop; TDone 141000; TDone 141500; TDone 142000].
Definition tshown (r : res (reply th)) :=
  match r with Ok (Go s es) => Some (map (fun x => (l_tag (en_line x), map ev_trig (l_events (en_line x)), l_down (en_line x), en_clk x)) es, e_stop (r_env (t_rt s)), t_ph s) | _ => None end.
Lemma tx_main_ok fast d ops : match init_tags tx_env 100000 d with Ok e1 => match init_timers e1 (p_timers ex_prog) with
    Ok e2 => tops_okb ex_prog false false fast (mkTh (mkRt (start_exec e2) (fun _ => false) [] 0) Run NEVER_TAG false 100000) ops | UB => true end | UB => true end = true ->
  tmain_ok ex_prog false false fast tx_env 100000 d ops.
Proof.
  intros K. split; [reflexivity|]. split; [unfold NEVER, FOREVER, LLONG_MIN, LLONG_MAX; lia|].
  split; [intros [|[|n]]; reflexivity|]. split; [intros tr [<-|[]]; cbn; lia|].
  intros e1 e2 H1 H2. rewrite H1, H2 in K. apply tops_okb_ok, K.
Qed.
Example C67_ex : tmain_ok ex_prog false false false tx_env 100000 90000 tx_ops /\
  tshown (tmain ex_prog false false false tx_env 100000 90000 tx_ops) =
    Some ([(mkTag 100000 0, [], false, 100000); (mkTag 100000 1, [Some 1%nat], false, 100200); (mkTag 128000 0, [Some 1%nat], false, 128001);
           (mkTag 140000 0, [Some 0%nat], false, 140500); (mkTag 140000 1, [], true, 141000)], mkTag 140000 1, Over).
Proof. split; [apply tx_main_ok; vm_compute; reflexivity|vm_compute; reflexivity]. Qed.
(** In the middle of the wait: the program waits for the timer; the event of the other thread is pending, so the hypotheses of
    [C67_no_event_lost] and [C67_timeout] hold. *)
Example C67_wait_ex : exists s es s' es' v, tmain ex_prog false false false tx_env 100000 90000 (firstn 7 tx_ops) = Ok (Go s es) /\
  t_ph s = Wait 128000 /\ in_range (t_rt s) /\ In v (e_q (r_env (t_rt s))) /\ ev_tag v = mkTag 128000 0 /\ ev_trig v = Some 1%nat /\
  tops_ok ex_prog false false false s (skipn 7 tx_ops) /\ trun ex_prog false false false s (skipn 7 tx_ops) = Ok (Go s' es') /\
  map (fun x => l_tag (en_line x)) es' = [mkTag 128000 0; mkTag 140000 0; mkTag 140000 1].
Proof.
  assert (K : match tmain ex_prog false false false tx_env 100000 90000 (firstn 7 tx_ops) with
     | Ok (Go s es) => t_ph s = Wait 128000 /\ in_rangeb (t_rt s) = true /\ map (fun v => (ev_tag v, ev_trig v)) (e_q (r_env (t_rt s))) = [(mkTag 128000 0, Some 1%nat); (mkTag 140000 0, Some 0%nat)] /\
          tops_okb ex_prog false false false s (skipn 7 tx_ops) = true /\
          match trun ex_prog false false false s (skipn 7 tx_ops) with Ok (Go s' es') => map (fun x => l_tag (en_line x)) es' = [mkTag 128000 0; mkTag 140000 0; mkTag 140000 1] | _ => False end
     | _ => False end) by (vm_compute; repeat (split; [reflexivity|]); reflexivity).
  destruct (tmain ex_prog false false false tx_env 100000 90000 (firstn 7 tx_ops)) as [[s es| |]|]; try destruct K. destruct H0 as (K2 & K3 & K4 & K5).
  destruct (trun ex_prog false false false s (skipn 7 tx_ops)) as [[s' es'| |]|] eqn:E; [|destruct K5..].
  destruct (e_q (r_env (t_rt s))) as [|v q] eqn:Eq; [discriminate|]. assert (A : ev_tag v = mkTag 128000 0 /\ ev_trig v = Some 1%nat) by (clear - K3; cbn [map] in K3; split; congruence).
  exists s, es, s', es', v. split; [reflexivity|]. split; [exact H|]. split; [apply in_rangeb_ok, K2|].
  rewrite Eq. split; [left; reflexivity|]. split; [apply A|]. split; [apply A|]. split; [apply tops_okb_ok, K4|]. split; [exact E|exact K5].
Qed.

(** The hypotheses of [C67_ends] hold at the stop tag of the example. *)
Example C67_ends_ex : exists s es, tmain ex_prog false false false tx_env 100000 90000 (firstn 13 tx_ops) = Ok (Go s es) /\ t_ph s = Run /\ in_range (t_rt s) /\
  e_cur (r_env (t_rt s)) = e_stop (r_env (t_rt s)) /\ t_clk s = 141000 /\ e_stop (r_env (t_rt s)) = mkTag 140000 1.
Proof.
  assert (K : match tmain ex_prog false false false tx_env 100000 90000 (firstn 13 tx_ops) with
     | Ok (Go s es) => t_ph s = Run /\ in_rangeb (t_rt s) = true /\ e_cur (r_env (t_rt s)) = mkTag 140000 1 /\ e_stop (r_env (t_rt s)) = mkTag 140000 1 /\ t_clk s = 141000 | _ => False end)
     by (vm_compute; repeat (split; [reflexivity|]); reflexivity).
  destruct (tmain ex_prog false false false tx_env 100000 90000 (firstn 13 tx_ops)) as [[s es| |]|]; try destruct K. destruct H0 as (K2 & K3 & K4 & K5).
  exists s, es. rewrite K3, K4. split; [reflexivity|]. split; [exact H|]. split; [apply in_rangeb_ok, K2|]. split; [reflexivity|]. split; [exact K5|reflexivity].
Qed.

Definition tx_early : list top := [TAct (ASched 100100 1 9000 None); TDone 100200].
(** A tag may be entered before physical time reaches it, although -fast is not used: waits shorter than 10 microseconds are left out. *)
Theorem C67_early_refuted : ~ (forall P kp nd e start d ops s es en, tmain_ok P kp nd false e start d ops ->
  tmain P kp nd false e start d ops = Ok (Go s es) -> In en es -> ttime (l_tag (en_line en)) <= en_clk en).
Proof.
  intros H.
  assert (K : match tmain ex_prog false false false tx_env 100000 90000 tx_early with Ok (Go s [_; en]) => ttime (l_tag (en_line en)) = 109000 /\ en_clk en = 100200 | _ => False end) by (vm_compute; split; reflexivity).
  assert (O : tmain_ok ex_prog false false false tx_env 100000 90000 tx_early) by (apply tx_main_ok; vm_compute; reflexivity).
  specialize (H ex_prog false false tx_env 100000 90000 tx_early).
  destruct (tmain ex_prog false false false tx_env 100000 90000 tx_early) as [[s [|e0 [|e1 [|e2 es]]]| |]|]; try contradiction. destruct K as (K1 & K2).
  specialize (H s [e0; e1] e1 O eq_refl (or_intror (or_introl eq_refl))). rewrite K1, K2 in H. lia.
Qed.
Print Assumptions C67_early_refuted.
