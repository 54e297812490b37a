(** C25, C27, C28: the main loop. *)
From Verif Require Import Base Tag TagSpec TagProofs Pqueue PqueueProofs Token TokenProofs Schedule ScheduleSpec ScheduleProofs Runtime RuntimeSpec RuntimeProofs.
From Coq Require Import Arith.
Open Scope Z_scope.

(** ** C25.  One step: it never ends in the error exit; the new tag is later, is not past any
    pending event, is the tag of a pending event or the stop tag; the events processed are exactly
    those pending at that tag; the others stay, and all of them are in the future. *)
Theorem C25_step : forall P kp nd now s r, sound s -> tag_lt (e_cur (r_env s)) (e_stop (r_env s)) -> in_range s -> timers_logical (r_env s) ->
  enter P kp nd now s = Ok r ->
  exists s1 evs down, r = Some (s1, evs, down) /\ sound s1 /\
    let t := e_cur (r_env s1) in
    tag_lt (e_cur (r_env s)) t /\
    (forall v, In v (e_q (r_env s)) -> tag_le t (ev_tag v)) /\
    (t = e_stop (r_env s1) \/ exists v, In v (e_q (r_env s)) /\ ev_tag v = t) /\
    (forall v, In v evs <-> In v (e_q (r_env s)) /\ ev_tag v = t) /\
    (forall v, In v (e_q (r_env s)) -> ev_tag v <> t -> In v (e_q (r_env s1))).
Proof.
  intros P kp nd now s r S Hlt Hr Ht H. destruct (enter_spec _ _ _ _ _ _ S Hlt Hr Ht H) as (s1 & evs & down & -> & S1 & A1 & A2 & A3 & A4 & A5 & A6 & A7 & A8).
  exists s1, evs, down. auto 10.
Qed.
Print Assumptions C25_step.

(** A whole execution, from the start tag: no error exit, strictly increasing tags, every event
    handled at its own tag. *)
Theorem C25_execution : forall P kp nd e start duration l0 steps r, main_ok P kp nd e start duration l0 steps ->
  main P kp nd e start duration l0 steps = Ok r ->
  exists s tr b x rest, r = Some (s, tr, b) /\ tr = x :: rest /\ l_tag x = mkTag start 0 /\ increasing (mkTag start 0) rest /\
    (forall y v, In y tr -> In v (l_events y) -> ev_tag v = l_tag y).
Proof.
  intros P kp nd e start duration l0 steps r Hok H. destruct (main_spec _ _ _ _ _ _ _ _ _ Hok H) as (s & tr & b & -> & _ & (x & rest & E1 & E2 & E3) & Hg & _).
  exists s, tr, b, x, rest. split; [reflexivity|]. repeat (split; [assumption|]). intros y v Hy. rewrite Forall_forall in Hg. apply (Hg y Hy).
Qed.
Print Assumptions C25_execution.

(** No event is lost: one pending at some point of the execution is processed at its tag, or is still
    pending (under the same trigger and tag; its value may be replaced) when the execution is looked at. *)
Theorem C25_no_event_lost : forall P kp nd steps s s' tr b v, sound s -> tag_lt (e_cur (r_env s)) (e_stop (r_env s)) -> timers_logical (r_env s) ->
  loop_ok P kp nd s steps -> loop P kp nd s steps = Ok (Some (s', tr, b)) -> In v (e_q (r_env s)) ->
  (exists w, In w (e_q (r_env s')) /\ ev_trig w = ev_trig v /\ ev_tag w = ev_tag v /\ tag_lt (e_cur (r_env s')) (ev_tag v)) \/
  (exists x w, In x tr /\ l_tag x = ev_tag v /\ In w (l_events x) /\ ev_trig w = ev_trig v /\ ev_tag w = ev_tag v).
Proof.
  intros P kp nd steps s s' tr b v S Hlt Ht Hok H Hv. destruct (loop_spec _ _ _ _ _ _ S Hlt Ht Hok H) as (s2 & tr2 & b2 & Er & S2 & _). injection Er as <- <- <-.
  destruct (loop_keys _ _ _ _ _ _ _ _ S Hlt Ht Hok H (key v) (in_map key _ _ Hv)) as [Q|(x & Q1 & Q2 & Q3)].
  - left. apply in_map_iff in Q. destruct Q as (w & E & Hw). unfold key in E. injection E as E1 E2. exists w. repeat (split; [assumption|]). rewrite <- E2. destruct S2 as (F & _). apply F, Hw.
  - right. apply in_map_iff in Q3. destruct Q3 as (w & E & Hw). unfold key in E. injection E as E1 E2. exists x, w. auto.
Qed.
Print Assumptions C25_no_event_lost.

(** ** C27.  The stop tag never increases, whatever reactions do and whenever a tag is entered. *)
Theorem C27_stop_never_increases : forall P kp nd e start duration l0 steps, 
  (forall s l s', sound s -> acts_ok P nd s l -> acts P nd s l = Ok s' -> tag_le (e_stop (r_env s')) (e_stop (r_env s))) /\
  (forall s r, sound s -> tag_lt (e_cur (r_env s)) (e_stop (r_env s)) -> timers_logical (r_env s) -> loop_ok P kp nd s steps ->
     loop P kp nd s steps = Ok r -> exists s' tr b, r = Some (s', tr, b) /\ tag_le (e_stop (r_env s')) (e_stop (r_env s))) /\
  (main_ok P kp nd e start duration l0 steps -> 0 <= duration -> forall s tr b, main P kp nd e start duration l0 steps = Ok (Some (s, tr, b)) ->
     tag_le (e_stop (r_env s)) (mkTag (start + duration) 0)).
Proof.
  intros P kp nd e start duration l0 steps. split; [|split].
  - intros s l s' S Hok H. apply (acts_sound _ _ _ _ _ S Hok H).
  - intros s r S Hlt Ht Hok H. destruct (loop_spec _ _ _ _ _ _ S Hlt Ht Hok H) as (s2 & tr2 & b2 & Er & S2 & _ & _ & Q & _). eauto.
  - intros Hmain Hd s tr b H. pose proof Hmain as (Hq & Hst & Htl & Hw & Hrun). unfold main in H. bind_inv H. rename x into e1. bind_inv H. rename x into e2. cbv zeta in H. bind_inv H. rename x into s1.
    destruct (Hrun e1 e2 eq_refl E0) as (Hacts & Hloop). clear Hrun. specialize (Hloop s1 E1).
    assert (K : e_cur e1 = mkTag start 0 /\ e_q e1 = [] /\ e_tr e1 = e_tr e /\ e_stop e1 = mkTag (start + duration) 0 /\ tag_ok (e_stop e1)).
    { unfold init_tags in E. destruct (0 <=? duration) eqn:Ed; [|lia].
      unfold c_add64 in E. destruct (in_int64b (start + duration)) eqn:Ei; [|discriminate]. cbn [bind] in E. injection E as <-. cbn. repeat (split; [first [reflexivity|assumption]|]).
      apply in_int64b_spec in Ei. split; cbn; [exact Ei|unfold in_uint32, UINT_MAX; lia]. }
    destruct K as (K1 & K2 & K3 & K4 & K5). destruct (init_timers_spec _ _ _ E0) as ((L1 & L2 & L3) & L4).
    { intros tr0 Htr. rewrite K3. apply Hw, Htr. }
    assert (F1 : future_queue e1) by (intros v Hv; rewrite K2 in Hv; destruct Hv). specialize (L4 F1 ltac:(rewrite K1; reflexivity)).
    assert (S0 : sound (mkRt (start_exec e2) (fun _ => false) [] 0)).
    { split; [exact L4|]. cbn. rewrite L1, L2, K1, K4. split; [unfold tag_le; cbn; lia|]. split; [tag_consts; cbn; lia|]. split; [rewrite <- K4; exact K5|reflexivity]. }
    destruct (acts_sound _ _ _ _ _ S0 Hacts E1) as (S1 & B1 & B2 & B3 & B4). cbn [r_env start_exec e_stop] in B2. rewrite L2, K4 in B2.
    destruct (continues s1) eqn:Ec.
    + apply (continues_spec _ S1) in Ec. bind_inv H. destruct x as [[[s3 tr3] b3]|]; [|discriminate]. injection H as <- _ _.
      assert (Htl1 : timers_logical (r_env s1)).
      { intros u. destruct (acts_static _ _ _ _ _ E1 u) as (-> & _ & ->). cbn. rewrite L3, K3. apply Htl. }
      destruct (loop_spec _ _ _ _ _ _ S1 Ec Htl1 Hloop E2) as (s4 & tr4 & b4 & Er & _ & _ & _ & Q & _). injection Er as <- _ _. eapply tag_le_trans; [exact Q|exact B2].
    + injection H as <- _ _. exact B2.
Qed.
Print Assumptions C27_stop_never_increases.

(** Execution never passes the stop tag; when it has ended, shutdown was triggered exactly once, at the
    last tag, which is the stop tag; until then shutdown has not been triggered. *)
Theorem C27_shutdown_once : forall P kp nd e start duration l0 steps s tr b, main_ok P kp nd e start duration l0 steps ->
  main P kp nd e start duration l0 steps = Ok (Some (s, tr, b)) ->
  (forall x, In x tr -> tag_le (l_tag x) (e_stop (r_env s))) /\
  (b = true -> forall x, In x tr -> l_down x = false) /\
  (b = false -> exists pre x, tr = pre ++ [x] /\ l_tag x = e_stop (r_env s) /\ l_down x = true /\ forall y, In y pre -> l_down y = false).
Proof.
  intros P kp nd e start duration l0 steps s tr b Hok H. destruct (main_spec _ _ _ _ _ _ _ _ _ Hok H) as (s1 & tr1 & b1 & Er & _ & _ & _ & D & Q). injection Er as <- <- <-.
  split; [exact Q|]. split; intros ->.
  - destruct D as (_ & D). rewrite Forall_forall in D. exact D.
  - destruct D as (pre & x & -> & D1 & D2 & D3). exists pre, x. rewrite Forall_forall in D3. auto.
Qed.
Print Assumptions C27_shutdown_once.

(** A stop request takes effect at the next microstep (or earlier, if the stop tag is already earlier). *)
Theorem C27_request_stop : forall e, tag_ok (e_cur e) -> tmicro (e_cur e) < UINT_MAX ->
  e_stop (request_stop e) = (if tag_compare (mkTag (ttime (e_cur e)) (tmicro (e_cur e) + 1)) (e_stop e) <? 0 then mkTag (ttime (e_cur e)) (tmicro (e_cur e) + 1) else e_stop e).
Proof.
  intros e H Hm. destruct (bump_after _ H Hm) as (E & _). unfold request_stop, set_stop. rewrite E. destruct (_ <? 0); reflexivity.
Qed.
Print Assumptions C27_request_stop.

(** ** C28.  When a tag is entered the fields present are exactly those of the triggers of the events
    of that tag; so a port, which no event triggers, is absent.  Then reactions make present exactly what
    they set, until the next tag. *)
Theorem C28_presence : forall P kp nd now s s1 evs down, reach P kp nd s -> enter P kp nd now s = Ok (Some (s1, evs, down)) ->
  (forall f, In f (p_all P) -> (r_pres s1 f = true <-> triggered_field P evs f)) /\
  (forall l s2 f, acts P nd s1 l = Ok s2 -> In f (p_all P) -> (r_pres s2 f = true <-> triggered_field P evs f \/ In (ASet f) l)).
Proof.
  intros P kp nd now s s1 evs down Hr H. destruct (reach_inv _ _ _ _ Hr) as (R & Hs & Hap). destruct (enter_shows _ _ _ _ _ _ _ _ R Hs Hap H) as (R1 & Hp).
  split; [exact Hp|]. intros l s2 f Ha Hf. destruct (acts_shows _ _ _ _ _ R1 Ha) as (_ & Hq). rewrite Hq, Hp by exact Hf. reflexivity.
Qed.
Print Assumptions C28_presence.
Theorem C28_ports_absent : forall P kp nd now s s1 evs down f, reach P kp nd s -> enter P kp nd now s = Ok (Some (s1, evs, down)) ->
  In f (p_all P) -> (forall tr, p_field P tr <> f) -> r_pres s1 f = false.
Proof.
  intros P kp nd now s s1 evs down f Hr H Hf Hn. destruct (C28_presence _ _ _ _ _ _ _ _ Hr H) as (Hp & _). destruct (r_pres s1 f) eqn:E; [|reflexivity].
  apply Hp in E; [|exact Hf]. destruct E as (v & tr & _ & _ & E). destruct (Hn tr E).
Qed.
Print Assumptions C28_ports_absent.

(** *** Examples: trigger 0 is a timer of period 10, trigger 1 a logical action (field 1), field 2 a port; the
    timer's status is field 9.  At 100 the reactions schedule the action; at (100,1) they set the port; at 110
    they request a stop, which takes effect at (110,1). *)
Definition ex_prog : prog := mkProg [1; 2]%nat (fun tr => if Nat.eqb tr 0 then 9 else 1)%nat [0%nat].
Definition ex_trigs (n : nat) : trig := if Nat.eqb n 0 then mkTrig true false 0 10 PDefer NEVER_TAG else mkTrig false false 0 0 PDefer NEVER_TAG.
Definition ex_env : env := mkEnv NEVER_TAG NEVER_TAG [] ex_trigs 1 (tst_init (fun _ => mkTmpl None 4 1 false)) false.
Definition ex_l0 : list uact := [ASched 100 1 0 None].
Definition ex_steps : list turn := [TStep 101 [ASet 2]; TIntr [ASched 103 1 20 None]; TStep 110 [AStop]; TStep 111 []].
Definition shown (r : res (option (rt * list line * bool))) :=
  match r with
  | Ok (Some (s, tr, b)) => Some (map (fun x => (l_tag x, map ev_trig (l_events x), l_down x)) tr, e_stop (r_env s), map (r_pres s) [1; 2]%nat, b)
  | _ => None
  end.
Example C25_ex : main_ok ex_prog false false ex_env 100 1000 ex_l0 ex_steps /\
  shown (main ex_prog false false ex_env 100 1000 ex_l0 ex_steps) =
    Some ([(mkTag 100 0, [], false); (mkTag 100 1, [Some 1%nat], false); (mkTag 110 0, [Some 0%nat], false); (mkTag 110 1, [], true)], mkTag 110 1, [false; false], false).
Proof.
  split; [|vm_compute; reflexivity]. split; [reflexivity|]. split; [unfold NEVER, FOREVER, LLONG_MIN, LLONG_MAX; lia|].
  split; [intros [|[|n]]; reflexivity|]. split; [intros tr [<-|[]]; cbn; lia|].
  intros e1 e2 H1 H2. vm_compute in H1. injection H1 as <-. vm_compute in H2. injection H2 as <-. cbv zeta. split; [apply acts_okb_ok; vm_compute; reflexivity|].
  intros s H. apply loop_okb_ok. revert H. match goal with |- acts ?P ?nd ?s0 ?l = Ok s -> loop_okb ?P ?kp ?nd s ?steps = true =>
    assert (K : match acts P nd s0 l with Ok s1 => loop_okb P kp nd s1 steps | UB => true end = true) by (vm_compute; reflexivity); intros H; rewrite H in K; exact K end.
Qed.
(** The state after the first tag of the example: a port has been set; on entering the next tag it is absent and only the timer fires. *)
Example C28_ex : exists s s1 evs, reach ex_prog false false s /\ r_pres s 2%nat = true /\ r_pres s 1%nat = true /\
  enter ex_prog false false 110 s = Ok (Some (s1, evs, false)) /\ r_pres s1 2%nat = false /\ r_pres s1 1%nat = false /\ r_pres s1 9%nat = true.
Proof.
  set (s0 := mkRt (mkEnv (mkTag 100 1) (mkTag 1100 0) [mkEv (mkTag 110 0) (Some 0%nat) None] ex_trigs 1 (tst_init (fun _ => mkTmpl None 4 1 false)) true) (fun _ => false) [] 0).
  assert (R0 : reach ex_prog false false s0).
  { apply reach_init; [reflexivity|]. intros [|tr] H1 H2; cbn in *; [intros [?|[?|[]]]; discriminate|discriminate]. }
  destruct (acts ex_prog false s0 [ASet 2; ASet 1; ASet 2]) as [s|] eqn:E; [|discriminate].
  assert (Hs : reach ex_prog false false s) by (eapply reach_acts; eassumption).
  assert (K : match acts ex_prog false s0 [ASet 2; ASet 1; ASet 2] with
     | Ok s => (r_pres s 2%nat, r_pres s 1%nat, match enter ex_prog false false 110 s with Ok (Some (s1, evs, d)) => Some (d, r_pres s1 2%nat, r_pres s1 1%nat, r_pres s1 9%nat) | _ => None end)
     | UB => (false, false, None) end = (true, true, Some (false, false, false, true))) by (vm_compute; reflexivity).
  rewrite E in K. destruct (enter ex_prog false false 110 s) as [[[[s1 evs] d]|]|] eqn:E2; try discriminate. injection K as K1 K2 K3 K4 K5 K6. subst d.
  exists s, s1, evs. auto 10.
Qed.

(** At the last microstep of a time the request wraps around: the stop tag becomes earlier than the current tag. *)
Theorem C27_stop_wrap_refuted : exists e, tag_ok (e_cur e) /\ tag_lt (e_cur e) (e_stop e) /\ tag_lt (e_stop (request_stop e)) (e_cur e).
Proof.
  exists (mkEnv (mkTag 10 UINT_MAX) (mkTag 20 0) [] ex_trigs 1 (tst_init (fun _ => mkTmpl None 4 1 false)) true).
  split; [tag_consts; cbn; lia|]. split; [unfold tag_lt; cbn; lia|]. vm_compute. right. split; reflexivity.
Qed.
Print Assumptions C27_stop_wrap_refuted.

(** The status of a periodic timer is never recorded, so it is still present at a later tag at which the timer does not fire. *)
Theorem C28_timer_status_refuted : exists P s s1 evs, reach P false false s /\
  (exists tr, tg_timer (e_tr (r_env s) tr) = true /\ p_field P tr = 9%nat) /\
  enter P false false 111 s = Ok (Some (s1, evs, false)) /\ ~ triggered_field P evs 9 /\ r_pres s1 9%nat = true.
Proof.
  set (s0 := mkRt (mkEnv (mkTag 100 1) (mkTag 1100 0) [mkEv (mkTag 110 0) (Some 0%nat) None; mkEv (mkTag 111 0) (Some 1%nat) None] ex_trigs 1 (tst_init (fun _ => mkTmpl None 4 1 false)) true) (fun _ => false) [] 0).
  assert (R0 : reach ex_prog false false s0).
  { apply reach_init; [reflexivity|]. intros [|tr] H1 H2; cbn in *; [intros [?|[?|[]]]; discriminate|discriminate]. }
  destruct (enter ex_prog false false 110 s0) as [[[[s evs0] d]|]|] eqn:E; try discriminate.
  assert (Hs : reach ex_prog false false s) by (eapply reach_enter; eassumption).
  assert (K : match enter ex_prog false false 110 s0 with
     | Ok (Some (s, _, _)) => match enter ex_prog false false 111 s with Ok (Some (s1, evs, d)) => Some (d, map ev_trig evs, r_pres s1 9%nat) | _ => None end
     | _ => None end = Some (false, [Some 1%nat], true)) by (vm_compute; reflexivity).
  rewrite E in K. destruct (enter ex_prog false false 111 s) as [[[[s1 evs] d1]|]|] eqn:E2; try discriminate. injection K as K1 K2 K3. subst d1.
  exists ex_prog, s, s1, evs. split; [exact Hs|]. split.
  - exists 0%nat. split; [|reflexivity]. destruct (enter_static _ _ _ _ _ _ _ _ E) as (_ & B). destruct (B 0%nat) as (-> & _). reflexivity.
  - split; [exact E2|]. split; [|exact K3]. intros (v & tr & Hv & Ht & Hf). apply (in_map ev_trig) in Hv. rewrite K2, Ht in Hv. destruct Hv as [Hv|[]]. injection Hv as <-. discriminate.
Qed.
Print Assumptions C28_timer_status_refuted.
