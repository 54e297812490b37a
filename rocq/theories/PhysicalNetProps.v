(** C90: promises of a federate with physical actions. *)
From Verif Require Import Base Tag TagSpec TagProofs PhysicalNet PhysicalNetSpec PhysicalNetProofs.
Local Open Scope Z_scope.

(** Once a federate has announced a tag, no output of it has an earlier time, unless it goes
    back to a message; whatever its program, whenever its physical actions happen, and
    however its waits end.  Without messages no output has an earlier tag. *)
Theorem C90_promise_partial : forall c now cur q l, 0 <= c_min c -> 1 <= c_interval c -> fresh q -> 0 <= tmicro cur ->
  let s := run c (init now cur q) l in
  promises same_time_or_later (f_log s) /\ (Forall no_message l -> clock_ok c s -> promises not_earlier (f_log s)).
Proof.
  intros c now cur q l MIN INT F Z s. split.
  - apply (v_log c). apply inv_run; [assumption..|apply inv_init; assumption].
  - intros NM CK. apply m_log. apply (invm_run c); try assumption; [apply inv_init; assumption|apply invm_init; assumption].
Qed.
Print Assumptions C90_promise_partial.

(** Nothing overflows as long as the clock is in its range. *)
Theorem C90_defined : forall c now cur q l, 0 <= c_min c -> 1 <= c_interval c -> 0 <= now -> let s := run c (init now cur q) l in clock_ok c s -> f_phase s <> Undefined.
Proof. intros c now cur q l MIN INT Z s CK. apply (def_run c); try assumption. discriminate. Qed.
Print Assumptions C90_defined.

(** The promise is renewed: if physical time does not allow the next event to be announced,
    the federate waits; at the next pass after the interval (or after the time of that event,
    if this is earlier) it announces a tag, whatever happened meanwhile; and if nothing did,
    it announces its next event or, if this is earlier, the earliest output of a physical
    action at the beginning of the wait plus the interval, minus a nanosecond. *)
Theorem C90_renews : forall c s l, 0 <= c_min c -> 1 <= c_interval c -> 0 <= f_now s -> f_phase s = Asking -> Forall environment l ->
  f_now s + c_min c < ttime (next_tag (f_queue s)) ->
  let s' := run c s (Pass :: l) in clock_ok c s' -> Z.min (f_now s + c_interval c) (ttime (next_tag (f_queue s))) <= f_now s' ->
  let t := earlier (next_tag (f_queue s)) (mkTag (f_now s + c_min c + c_interval c - 1) 0) in
  f_log s' = f_log s /\ exists x, f_log (run c s' [Pass]) = SNet x :: f_log s /\ f_phase (run c s' [Pass]) = Ready x /\ tag_le x t /\ (Forall ticks l -> x = t).
Proof.
  intros c s l MIN INT Z PH F B s' CK W t.
  assert (CK0 : clock_ok c s) by (unfold clock_ok in *; pose proof (now_run c (Pass :: l) s); subst s'; lia).
  set (s1 := put (mkEvent (mkTag (f_now s + c_min c - 1 + c_interval c) 0) 0 true) s).
  assert (E1 : s' = run c s1 l). { subst s'. cbn [run step]. rewrite PH. cbn [f_phase]. rewrite (pass_waits c MIN INT s Z CK0 B). reflexivity. }
  destruct (env_run c l s1 F) as (P & L & N & T). rewrite <- E1 in P, L, N, T.
  assert (NT : next_tag (f_queue s1) = t).
  { subst t. unfold earlier. subst s1. cbn [put f_queue next_tag fold_right e_tag]. fold (next_tag (f_queue s)). replace (f_now s + c_min c - 1 + c_interval c) with (f_now s + c_min c + c_interval c - 1) by lia. reflexivity. }
  rewrite NT in N. split; [exact L|]. exists (next_tag (f_queue s')).
  assert (TT : ttime t <= f_now s + c_min c + c_interval c - 1 /\ ttime t <= ttime (next_tag (f_queue s))).
  { rewrite <- NT. split; [|apply le_time; subst s1; apply next_cons]. pose proof (next_le (f_queue s1) _ (or_introl eq_refl)) as X. apply le_time in X. cbn [e_tag ttime] in X. lia. }
  assert (NS : f_now s <= f_now s') by apply now_run. apply le_time in N as N'.
  assert (PS : pass c s' = set_phase (Ready (next_tag (f_queue s'))) (say (SNet (next_tag (f_queue s'))) s')) by (apply pass_sends; try assumption; lia).
  assert (P' : f_phase s' = Asking) by (rewrite P; subst s1; cbn [put f_phase]; exact PH).
  cbn [run step]. rewrite P', PS. cbn [set_phase say f_log f_phase]. rewrite L. subst s1. cbn [put f_log] in *. split; [reflexivity|]. split; [reflexivity|]. split; [exact N|]. intros TK. rewrite (T TK). exact NT.
Qed.
Print Assumptions C90_renews.

(** A federate with an action that delays by 5 and another that delays by 40, a timer at 1000,
    and the usual interval. *)
Definition usual : config := mkConfig 5 10000000 false.
Definition usual_run : list op :=
  [Tick 10; Pass; Action 5 0 0; Pass; Action 0 9 0; Renew; Tick 20; Advance; Out 0; Plan 0 0 9 0; Plan 0 9 0 0; Done; Pass; Advance; Done; Pass; Advance; Out 0; Done; Pass].
Definition usual_end : fed := run usual (init 100 (mkTag 100 0) [mkEvent (mkTag 1000 0) 0 true]) usual_run.
Example C90_usual : fresh [mkEvent (mkTag 1000 0) 0 true] /\ Forall no_message usual_run /\ clock_ok usual usual_end /\
  f_log usual_end = [SNet (mkTag 119 0); SOut (mkTag 115 0) true; SNet (mkTag 115 0); SNet (mkTag 110 1); SNet (mkTag 110 0); SNet (mkTag 115 0)].
Proof. split; [repeat constructor; discriminate|]. split; [repeat constructor|]. split; vm_compute; reflexivity. Qed.
Example C90_renews_inst : let s := init 100 (mkTag 100 0) [] in let l := [Tick 10000000] in let s' := run usual s (Pass :: l) in
  f_phase s = Asking /\ Forall environment l /\ f_now s + c_min usual < ttime (next_tag (f_queue s)) /\ clock_ok usual s' /\ f_now s + c_interval usual <= f_now s' /\
  f_log (run usual s' [Pass]) = [SNet (mkTag 10000104 0)].
Proof. split; [reflexivity|]. split; [repeat constructor|]. vm_compute. repeat split; discriminate. Qed.

(** Refuted: no output has a tag earlier than one announced.  Only times are compared with
    the physical clock, not microsteps: with a message for (200, 1) in the queue the federate
    announces (200, 1) at physical time 200; an action at that very time gives an output at
    (200, 0), up to which downstream federates may have been granted. *)
Theorem C90_microstep_refuted : exists c now cur q l, 0 <= c_min c /\ 1 <= c_interval c /\ fresh q /\ 0 <= tmicro cur /\
  let s := run c (init now cur q) l in clock_ok c s /\ ~ promises not_earlier (f_log s).
Proof.
  exists (mkConfig 0 10000000 false), 100, (mkTag 0 0), [], [Message (mkTag 200 1); Tick 100; Pass; Action 0 0 0; Advance; Out 0].
  split; [cbn; lia|]. split; [cbn; lia|]. split; [constructor|]. split; [cbn; lia|]. cbv zeta. split; [vm_compute; reflexivity|]. intros P.
  specialize (P [] [SNet (mkTag 200 1)] (mkTag 200 0) (mkTag 200 1) ltac:(vm_compute; reflexivity) (or_introl eq_refl)). unfold not_earlier, tag_le in P. cbn in P. lia.
Qed.
Print Assumptions C90_microstep_refuted.

(** Refuted: the announcements without events are an interval apart.  Every time the wait is
    interrupted another dummy event is put into the queue, so that later as many tags are
    announced, one nanosecond apart here, without any time passing in between. *)
Theorem C90_interval_refuted : exists l s, s = run usual (init 100 (mkTag 100 0) []) (l ++ [Pass; Tick (c_interval usual + c_min usual); Pass; Advance; Done; Pass; Advance; Done; Pass; Advance; Done]) /\
  Forall (fun o => o = Pass \/ o = Tick 1) l /\ f_log s = [SNet (mkTag 10000106 0); SNet (mkTag 10000105 0); SNet (mkTag 10000104 0)] /\ f_phase s = Asking.
Proof.
  set (l := [Pass; Tick 1; Pass; Tick 1]). exists l.
  eexists. split; [reflexivity|]. split; [subst l; repeat (apply Forall_cons; [tauto|]); apply Forall_nil|]. vm_compute. split; reflexivity.
Qed.
Print Assumptions C90_interval_refuted.

(** Refuted: any interval may be chosen.  With an interval of at most a nanosecond the dummy
    event is not after the current tag, and the federate ends with an error. *)
Theorem C90_zero_interval_refuted : forall i, 0 <= i <= 1 -> exists now cur q l, fresh q /\ Forall (fun o => o = Pass \/ o = Advance) l /\ f_phase (run (mkConfig 0 i false) (init now cur q) l) = Backwards.
Proof.
  intros i L. exists 100, (mkTag 100 0), [mkEvent (mkTag 1000 0) 0 true], [Pass; Pass; Advance]. split; [repeat constructor; discriminate|]. split; [repeat (apply Forall_cons; [tauto|]); apply Forall_nil|].
  assert (i = 0 \/ i = 1) as [-> | ->] by lia; vm_compute; reflexivity.
Qed.
Print Assumptions C90_zero_interval_refuted.

(** Refuted: the option -fast may be used.  The federate announces and enters tags up to its
    minimum delay ahead of physical time; an action with a smaller delay of its own is then
    in the past, and the federate ends with an error. *)
Theorem C90_fast_refuted : exists c now cur q l, c_fast c = true /\ 0 <= c_min c /\ c_interval c = 10000000 /\ fresh q /\ f_phase (run c (init now cur q) l) = Backwards /\ In (Action 0 (c_min c) 0) l /\
  f_phase (run (mkConfig (c_min c) (c_interval c) false) (init now cur q) l) <> Backwards.
Proof.
  exists (mkConfig 50 10000000 true), 100, (mkTag 90 0), [mkEvent (mkTag 120 0) 0 true], [Pass; Advance; Done; Action 0 50 0; Pass; Advance].
  split; [reflexivity|]. split; [cbn; lia|]. split; [reflexivity|]. split; [repeat constructor; discriminate|]. split; [vm_compute; reflexivity|]. split; [cbn; tauto|vm_compute; discriminate].
Qed.
Print Assumptions C90_fast_refuted.
