(** C65: the value given to a schedule call arrives unchanged at the tag of its event. *)
From Verif Require Import Base Tag TagSpec Pqueue Token TokenSpec TokenProofs Schedule ScheduleSpec ScheduleProofs ScheduleProps Runtime RuntimeSpec RuntimeProofs Values ValuesSpec ValuesProofs.
Open Scope Z_scope.

(** A call that schedules a value makes it pending: in the situation of [C21_intended_tag] at the intended tag. For
    [lf_schedule_int] the element size of the action must be that of an int, for [lf_schedule_copy] not zero. *)
Theorem C65_value_scheduled : forall P kp nd cfg s0 ops s o now tr extra d s1,
  vstart cfg s0 -> vok_run P kp nd s0 (ops ++ [o]) -> vrun P kp nd s0 ops = Ok s -> vstep P kp nd s o = Ok s1 -> schedules o now tr extra d ->
  match o with VInt _ _ _ _ => tp_esz (ts_tmpl (e_tok (r_env s)) tr) = 4 | VCopy _ _ _ _ => 0 < tp_esz (ts_tmpl (e_tok (r_env s)) tr) | _ => True end ->
  let t := intended now (r_env s) tr extra in
  tg_period (e_tr (r_env s) tr) <= 0 -> ~ In (Some tr, t) (keys (e_q (r_env s))) ->
  (if tg_phys (e_tr (r_env s) tr) then ttime (e_cur (r_env s)) < now + total_delay (e_tr (r_env s) tr) extra
   else ttime (e_cur (r_env s)) + total_delay (e_tr (r_env s) tr) extra < FOREVER) ->
  tag_le t (e_stop (r_env s)) ->
  exists v, e_q (r_env s1) = v :: e_q (r_env s) /\ ev_trig v = Some tr /\ ev_tag v = t /\ carries s1 v d.
Proof.
  intros P kp nd cfg s0 ops s o now tr extra d s1 V0 Hok R H Hs Hesz t Hp Hn Hr Hst. pose proof (start_vinv _ _ V0) as V.
  destruct (vrun_inv _ _ _ _ _ _ _ V (vok_pre _ _ _ _ _ _ Hok) R) as ((E & V1) & _). destruct (vok_app _ _ _ _ _ _ _ Hok R) as (Ho & _).
  assert (Hc : on_env s (sched_value nd now (r_env s) tr extra d (Z.of_nat (length d))) = Ok s1).
  { destruct Hs as [->|[(v & -> & ->)| ->]]; cbn [vstep] in H; [exact H| |].
    - unfold sched_int in H. rewrite Hesz in H. exact H.
    - unfold sched_copy in H. destruct (Z.leb_spec (tp_esz (ts_tmpl (e_tok (r_env s)) tr)) 0) as [L|_]; [lia|exact H]. }
  destruct (schedules_value _ _ _ _ _ _ _ _ _ _ Hs Ho H) as (Hso & Hreg & _).
  destruct (value_carried _ _ _ _ _ _ _ _ V1 Hso Hreg Hc) as (Q & k & u & h & Hsch).
  destruct (C21_intended_tag nd now (with_tok (r_env s) k) tr extra (Some u) (r_env s1) h Hsch Hso (proj1 (proj2 (proj1 V1))) Hp Hn Hr) as (A & _).
  destruct (A Hst) as (A1 & _). unfold inserted in A1. cbn [with_tok e_q] in A1. exists (mkEv t (Some tr) (Some u)). destruct (Q _ A1) as (Q1 & Q2). split; [exact A1|]. split; [reflexivity|]. split; [reflexivity|exact Q2].
Qed.
Print Assumptions C65_value_scheduled.

(** Whatever happens after a call has made a value pending - other calls, messages, stop requests, reactions that set
    and copy tokens, tags that pass - the value stays as it was until the execution enters the tag of the event, and there the
    action has exactly this value. Exceptions: the policy "replace" overwrites pending values on purpose, and two events of one action at one tag (C23, C24) leave one value. *)
Theorem C65_value_arrives : forall P kp nd cfg s0 ops1 s o now tr extra d s1 v ops2 s2,
  vstart cfg s0 -> vok_run P kp nd s0 (ops1 ++ o :: ops2) ->
  vrun P kp nd s0 ops1 = Ok s -> vstep P kp nd s o = Ok s1 -> schedules o now tr extra d -> e_q (r_env s1) = v :: e_q (r_env s) ->
  tg_policy (e_tr (r_env s) tr) <> PReplace ->
  (forall pre post s', ops2 = pre ++ post -> vrun P kp nd s1 pre = Ok s' -> alone s' tr (ev_tag v)) ->
  vrun P kp nd s1 ops2 = Ok s2 ->
  (tag_lt (e_cur (r_env s2)) (ev_tag v) /\ pending s2 tr (ev_tag v) d) \/
  exists pre now' post sa sb, ops2 = pre ++ VTag now' :: post /\ vrun P kp nd s1 pre = Ok sa /\ vstep P kp nd sa (VTag now') = Ok sb /\
    e_cur (r_env sb) = ev_tag v /\ value_of sb tr = Some d.
Proof.
  intros P kp nd cfg s0 ops1 s o now tr extra d s1 v ops2 s2 V0 Hok R H Hs Hv Hpol Hal R2. pose proof (start_vinv _ _ V0) as V.
  destruct (vrun_inv _ _ _ _ _ _ _ V (vok_pre _ _ _ _ _ _ Hok) R) as ((E & V1) & _). destruct (vok_app _ _ _ _ _ _ _ Hok R) as (Ho & Hrest).
  destruct (schedules_value _ _ _ _ _ _ _ _ _ _ Hs Ho H) as (Hso & Hreg & [->|Hc]).
  { apply (f_equal (@length _)) in Hv. cbn in Hv. lia. }
  destruct (value_carried _ _ _ _ _ _ _ _ V1 Hso Hreg Hc) as (Q & _). destruct (Q v Hv) as (Q1 & Q2).
  destruct (vstep_post _ _ _ _ _ _ _ V1 Ho H) as ((E2 & V2) & Hp & _).
  destruct (arrives P kp nd tr v d ops2 s1 s2 E2 V2 (Hrest _ H) R2) as [(A & B & C)|A]; try assumption.
  - rewrite Hv. left. reflexivity.
  - rewrite Hp. exact Hpol.
  - left. split; [exact B|]. exists v. auto.
  - right. exact A.
Qed.
Print Assumptions C65_value_arrives.

(** Once there, the value can be read until the action itself is set or scheduled with a new value, or the tag ends:
    nothing done to other actions and ports changes it. *)
Theorem C65_readable_during_tag : forall P kp nd cfg s0 ops1 s tr d ops2 s2,
  vstart cfg s0 -> vok_run P kp nd s0 (ops1 ++ ops2) -> vrun P kp nd s0 ops1 = Ok s -> value_of s tr = Some d ->
  Forall (fun o => ~ touches o tr) ops2 -> vrun P kp nd s ops2 = Ok s2 -> value_of s2 tr = Some d.
Proof.
  intros P kp nd cfg s0 ops1 s tr d ops2 s2 V0 Hok R Hv F R2. pose proof (start_vinv _ _ V0) as V.
  destruct (vrun_inv _ _ _ _ _ _ _ V (vok_pre _ _ _ _ _ _ Hok) R) as ((E & V1) & _).
  eapply value_kept; try eassumption. eapply vok_app; eassumption.
Qed.
Print Assumptions C65_readable_during_tag.

(** *** Examples.  Triggers 0 and 1 are actions (0 logical with minimum delay 5, 1 physical), 2 is a port. *)
Definition ex_prog : prog := mkProg [2]%nat (fun tr => tr) [].
Definition ex_trigs (n : nat) : trig := match n with O => mkTrig false false 5 0 PDefer NEVER_TAG | 1%nat => mkTrig false true 0 0 PDefer NEVER_TAG | _ => mkTrig false false 0 0 PDefer NEVER_TAG end.
Definition ex_cfg : nat -> tmpl := fun _ => mkTmpl None 4 1 false.
Definition ex_s0 : rt := mkRt (mkEnv (mkTag 100 0) (mkTag 1000 0) [] ex_trigs 1 (tst_init ex_cfg) true) (fun _ => false) [] 0.
Definition ex_ops1 : list vop := [VTok (OInit 0 4); VTok (OInit 1 4); VTok (OInit 2 4); VInt 101 0 0 6].
Definition ex_call : vop := VValue 103 0 10 [7; 8].
Definition ex_ops2 : list vop := [VCopy 104 1 7 (Some [9]); VTok (OSet 2 [1; 2]); VMsg 2 (mkTag 105 0) None; VTag 106; VTok (OCopy 0); VTok (OSetToken 2 0); VValue 107 0 1 [4]; VIdle; VTag 108; VTag 112; VTag 116].
Definition ex_s : rt := match vrun ex_prog false false ex_s0 ex_ops1 with Ok s => s | UB => ex_s0 end.
Definition ex_s1 : rt := match vstep ex_prog false false ex_s ex_call with Ok s => s | UB => ex_s0 end.
Lemma ex_start : vstart ex_cfg ex_s0.
Proof.
  split; [|split; [intros [|[|n]]; discriminate|split; [reflexivity|intros v []]]].
  split; [intros v []|]. split; [left; reflexivity|]. split; [apply tag_okb_spec; reflexivity|]. split; [apply tag_okb_spec; reflexivity|reflexivity].
Qed.
Example C65_ex : vok_run ex_prog false false ex_s0 (ex_ops1 ++ ex_call :: ex_ops2) /\
  vrun ex_prog false false ex_s0 ex_ops1 = Ok ex_s /\ vstep ex_prog false false ex_s ex_call = Ok ex_s1 /\ schedules ex_call 103 0%nat 10 [7; 8] /\
  (exists v, e_q (r_env ex_s1) = v :: e_q (r_env ex_s) /\ ev_tag v = mkTag 115 0 /\
    forall pre post s', ex_ops2 = pre ++ post -> vrun ex_prog false false ex_s1 pre = Ok s' -> alone s' 0 (ev_tag v)) /\
  map (fun n => match vrun ex_prog false false ex_s1 (firstn n ex_ops2) with Ok s => (e_cur (r_env s), map ev_tag (e_q (r_env s)), value_of s 0, value_of s 1, value_of s 2) | UB => (NEVER_TAG, [], None, None, None) end) [4; 9; 10]%nat =
    [(mkTag 105 0, [mkTag 111 0; mkTag 115 0], Some [6], Some [9], None); (mkTag 111 0, [mkTag 115 0], Some [4], Some [9], Some [6]);
     (mkTag 115 0, [], Some [7; 8], Some [9], Some [6])].
Proof.
  split; [apply (vok_runb_ok _ _ _ _ _ [] (start_vinv _ _ ex_start)); vm_compute; reflexivity|].
  split; [vm_compute; reflexivity|]. split; [vm_compute; reflexivity|]. split; [left; reflexivity|]. split.
  - eexists. split; [vm_compute; reflexivity|]. split; [reflexivity|]. intros pre post s' Q R. apply alone_count, Nat.leb_le. revert pre post s' Q R.
    apply (alongb_ok ex_prog false false (fun s => (kcount s 0 (mkTag 115 0) <=? 1)%nat)). vm_compute. reflexivity.
  - vm_compute. reflexivity.
Qed.

(** Without the restriction to calls for other actions the value is not safe: a call that schedules the same action
    again frees and overwrites the value that later reactions at this tag read ([initialize_token_with_value] reuses the
    template's token when nobody else holds it). *)
Theorem C65_current_value_overwritten_refuted : exists s0 ops s s1,
  vstart ex_cfg s0 /\ vok_run ex_prog false false s0 (ops ++ [VValue 107 0 1 [4]]) /\ vrun ex_prog false false s0 ops = Ok s /\
  value_of s 0 = Some [6] /\ vstep ex_prog false false s (VValue 107 0 1 [4]) = Ok s1 /\ e_cur (r_env s1) = e_cur (r_env s) /\ value_of s1 0 = Some [4].
Proof.
  exists ex_s0, (ex_ops1 ++ [VTag 106]). eexists _, _. split; [exact ex_start|].
  split; [apply (vok_runb_ok _ _ _ _ _ [] (start_vinv _ _ ex_start)); vm_compute; reflexivity|].
  split; [vm_compute; reflexivity|]. split; [vm_compute; reflexivity|]. split; [vm_compute; reflexivity|]. split; vm_compute; reflexivity.
Qed.
Print Assumptions C65_current_value_overwritten_refuted.
