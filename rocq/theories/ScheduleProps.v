(** Property theorems C21-C24: scheduling. *)
From Verif Require Import Base Tag TagSpec TagProofs Pqueue PqueueProofs Token TokenSpec TokenProofs Schedule ScheduleSpec ScheduleProofs.
From Coq Require Import Arith.
Open Scope Z_scope.

(** ** C21.  A schedule call leaves the queue alone, gives a pending event of the same action a
    new value, or adds exactly one event, with the given action and value, strictly after the
    current tag and not after the stop tag. *)
Theorem C21_schedule_future : forall nd now e tr extra tok e' h,
  sched nd now e (Some tr) extra tok = Ok (e', h) -> sched_ok nd now e tr extra ->
  e_q e' = e_q e \/ (exists t, revalued e e' tr t tok) \/
  (exists t, inserted e e' (mkEv t (Some tr) tok) /\ tag_lt (e_cur e) t /\ tag_le t (e_stop e)).
Proof. exact sched_effect. Qed.
Print Assumptions C21_schedule_future.

(** It does not touch the current tag, the stop tag, or any other action. *)
Theorem C21_schedule_frame : forall nd now e tr extra tok e' h, sched nd now e (Some tr) extra tok = Ok (e', h) ->
  e_cur e' = e_cur e /\ e_stop e' = e_stop e /\ (forall u, u <> tr -> e_tr e' u = e_tr e u) /\
  (forall v, ev_trig v <> Some tr -> In v (e_q e') <-> In v (e_q e)).
Proof.
  intros nd now e tr extra tok e' h H. apply sched_call in H. destruct H as ((C1 & C2 & _) & Hc). split; [exact C1|]. split; [exact C2|].
  destruct Hc as [A B|v A Hf _ _ B|t A B D F G I|b A B D F]; (split; [intros u Hu; rewrite B; try reflexivity; apply with_last_other, Hu|]); intros w Hw.
  - rewrite A. reflexivity.
  - destruct (replace_revalued e e' tr (tg_last (e_tr e tr)) tok v A Hf) as (a & x & b & E1 & E2 & E3). rewrite E1, E3, !in_app_iff. cbn [In].
    unfold key in E2. split; intros [Q|[Q|Q]]; auto; subst; cbn in Hw; congruence.
  - rewrite A. cbn [In]. split; [intros [<-|Q]; [cbn in Hw; congruence|exact Q]|auto].
  - rewrite A. cbn [In]. split; [intros [<-|Q]; [cbn in Hw; congruence|exact Q]|auto].
Qed.
Print Assumptions C21_schedule_frame.

(** Where the event lands: an action without minimum spacing and without an event already at the
    intended tag is scheduled exactly at the current tag plus the delay (next microstep for delay
    zero), a physical one at the clock reading plus the delay, if that is not after the stop tag;
    otherwise nothing is scheduled. *)
Definition intended (now : Z) (e : env) (tr : nat) (extra : Z) : tag :=
  let d := total_delay (e_tr e tr) extra in
  if tg_phys (e_tr e tr) then mkTag (now + d) 0
  else if d =? 0 then mkTag (ttime (e_cur e)) (tmicro (e_cur e) + 1) else mkTag (ttime (e_cur e) + d) 0.
Theorem C21_intended_tag : forall nd now e tr extra tok e' h,
  sched nd now e (Some tr) extra tok = Ok (e', h) -> sched_ok nd now e tr extra -> tag_le (e_cur e) (e_stop e) ->
  tg_period (e_tr e tr) <= 0 -> ~ In (Some tr, intended now e tr extra) (keys (e_q e)) ->
  (if tg_phys (e_tr e tr) then ttime (e_cur e) < now + total_delay (e_tr e tr) extra else ttime (e_cur e) + total_delay (e_tr e tr) extra < FOREVER) ->
  (tag_le (intended now e tr extra) (e_stop e) -> inserted e e' (mkEv (intended now e tr extra) (Some tr) tok) /\ h = e_handle e) /\
  (tag_lt (e_stop e) (intended now e tr extra) -> e_q e' = e_q e /\ h = 0).
Proof.
  intros nd now e tr extra tok e' h H Hok Hst Hp Hn Hr.
  assert (Eb : base nd now e (e_tr e tr) extra = intended now e tr extra).
  { unfold intended. destruct (tg_phys (e_tr e tr)) eqn:Eph; [unfold base; rewrite Eph; reflexivity|].
    destruct (base_logical _ _ _ _ _ Hok Eph) as (-> & _). pose proof (offset_ok _ _ _ _ _ Hok) as Hd. destruct Hok as (H1 & H2 & _ & _ & H5). rewrite Eph in H5.
    unfold delay_tag. rewrite (Z.mod_small (tmicro (e_cur e) + 1)) by (tag_consts; unfold two32; lia). repeat case_if; try lia; try reflexivity; tag_consts; lia. }
  assert (Hlt : tag_lt (e_cur e) (intended now e tr extra)).
  { rewrite <- Eb. destruct (tg_phys (e_tr e tr)) eqn:Eph; [left; unfold base; rewrite Eph; exact Hr|apply base_logical; assumption]. }
  assert (Es : settle nd e (intended now e tr extra) = intended now e tr extra) by (apply settle_id; exact Hlt).
  pose proof H as Hs. apply sched_call in H. destruct H as (_ & Hc).
  assert (Hex : tag_le (intended now e tr extra) (e_stop e) -> e_q e' = e_q e -> False).
  { intros Hle Hq. unfold sched in Hs. apply after_stop_spec in Hst. rewrite Hst in Hs. bind_inv Hs. cbv zeta in Hs.
    change (e_tr (with_tok e x)) with (e_tr e) in Hs. bind_inv Hs. apply total_delay_ok in E0. subst x0. bind_inv Hs.
    assert (E1 : x0 = intended now e tr extra).
    { rewrite <- Eb. unfold base. destruct (tg_phys (e_tr e tr)); [|injection E0 as <-; reflexivity]. unfold c_add64 in E0. destruct (in_int64b _); cbn [bind] in E0; [|discriminate].
      injection E0 as <-. reflexivity. }
    subst x0. change (e_q (with_tok e x)) with (e_q e) in Hs.
    destruct (tg_period (e_tr e tr) <=? 0) eqn:Ep; [|lia]. destruct (find_ev (e_q e) (Some tr) (intended now e tr extra)) as [v|] eqn:Ef.
    { apply find_ev_some in Ef. destruct Ef as (Hv & Hk). apply Hn. rewrite <- Hk. apply (in_map key), Hv. }
    unfold sched_finish in Hs. cbv zeta in Hs.
    change (if tag_compare (clamp_now nd (with_tok e x) (intended now e tr extra)) (e_cur (with_tok e x)) =? 0 then bump (clamp_now nd (with_tok e x) (intended now e tr extra))
            else clamp_now nd (with_tok e x) (intended now e tr extra)) with (settle nd e (intended now e tr extra)) in Hs. rewrite Es in Hs.
    change (after_stop (with_tok e x)) with (after_stop e) in Hs. apply after_stop_spec in Hle. rewrite Hle in Hs.
    unfold take_handle in Hs. change (e_handle (insert_ev _ _)) with (e_handle e) in Hs. destruct (e_handle e <? INT_MAX); [|discriminate].
    injection Hs as <- _. cbn [with_handle insert_ev with_q with_last with_tok e_q] in Hq. apply (f_equal (@length _)) in Hq. cbn in Hq. lia. }
  destruct Hc as [A B C0|v A _ ((Hsp & _) & _) _ B|t A B D F G I|b A B D [(Ebb & _ & _)|(_ & ((Hsp & _) & _) & _)] Hh]; try lia.
  - split; [intros Hle; destruct (Hex Hle A)|auto].
  - rewrite Eb in G. contradiction.
  - rewrite Ebb, Eb, Es in A, D. split; [intros _; split; [exact A|exact Hh]|]. intros Hgt. destruct (tag_lt_irrefl (e_stop e)). eapply tag_lt_le_trans; eassumption.
Qed.
Print Assumptions C21_intended_tag.

(** The call is defined (no undefined behaviour) and afterwards every pending event still holds a
    reference to its value: [tinv_q] says that the token store satisfies the invariant behind C18
    with the references of the pending events among the outstanding ones. *)
Theorem C21_pending_values_live : forall C nd now e E tr extra tok, tinv (e_tok e) C E -> held_by E (e_q e) -> tok_ok (e_tok e) C E tok ->
  tag_le (e_cur e) (e_stop e) -> sched_range now e tr extra ->
  exists e' h, sched nd now e (Some tr) extra tok = Ok (e', h) /\
    forall v t, In v (e_q e') -> ev_tok v = Some t -> usable (e_tok e') t /\ forall p, payload (e_tok e') t = Some p -> ts_pay (e_tok e') p <> None.
Proof.
  intros C nd now e E tr extra tok I Hq Ht Hs Hr. destruct (sched_defined C nd now e E tr extra tok I Hq Ht Hs Hr) as (e' & h & A & E' & I' & Hq').
  exists e', h. split; [exact A|]. intros v t Hv Hvt. pose proof (held_in _ _ _ _ Hq' Hv Hvt) as Hin. pose proof (holders_E (e_tok e') C E' t Hin) as Hpos.
  split; [eapply held_usable; [apply I'|exact Hpos]|]. intros p Hp. unfold payload in Hp. destruct (ts_tok (e_tok e') t) as [k|] eqn:Ek; [|discriminate].
  destruct (c_val _ _ (ti_core _ _ _ I') t k p Ek Hp) as (d & Hd & _). congruence.
Qed.
Print Assumptions C21_pending_values_live.

(** *** Examples *)
Definition act (phys : bool) (off period : Z) (p : policy) : trig := mkTrig false phys off period p NEVER_TAG.
Definition ex_tok : tst := tst_init (fun _ => mkTmpl None 4 1 false).
Definition ex_env (cur stop : tag) (q : list event) (tr : nat -> trig) : env := mkEnv cur stop q tr 1 ex_tok true.
Definition look (r : res (env * Z)) : res (list (tag * option nat * option nat) * Z) :=
  do! p <- r; Ok (map (fun v => (ev_tag v, ev_trig v, ev_tok v)) (e_q (fst p)), snd p).
Definition ex_e := ex_env (mkTag 100 2) (mkTag 200 0) [mkEv (mkTag 105 0) (Some 0%nat) None] (fun n => if Nat.eqb n 0 then act false 0 0 PDefer else act true 3 10 PDrop).
Example C21_ex : sched_ok false 120 ex_e 0 0 /\ sched_ok false 120 ex_e 1 7 /\ sched_range 120 ex_e 0 0 /\
  look (sched false 120 ex_e (Some 0%nat) 0 None) = Ok ([(mkTag 100 3, Some 0%nat, None); (mkTag 105 0, Some 0%nat, None)], 1) /\
  look (sched false 120 ex_e (Some 0%nat) 5 None) = Ok ([(mkTag 105 1, Some 0%nat, None); (mkTag 105 0, Some 0%nat, None)], 0) /\
  look (sched false 120 ex_e (Some 1%nat) 7 None) = Ok ([(mkTag 130 0, Some 1%nat, None); (mkTag 105 0, Some 0%nat, None)], 1) /\
  look (sched false 120 ex_e (Some 0%nat) 101 None) = Ok ([(mkTag 105 0, Some 0%nat, None)], 0).
Proof.
  assert (F : future_queue ex_e) by (intros v [<-|[]]; unfold tag_lt; cbn; lia).
  split; [|split; [|split; [|vm_compute; repeat split]]].
  - unfold sched_ok; cbn; unfold tag_ok, in_int64, in_uint32, NEVER, FOREVER, LLONG_MIN, LLONG_MAX, UINT_MAX; cbn. repeat split; try lia; exact F.
  - unfold sched_ok; cbn; unfold tag_ok, in_int64, in_uint32, NEVER, FOREVER, LLONG_MIN, LLONG_MAX, UINT_MAX; cbn. repeat split; try lia; exact F.
  - unfold sched_range; cbn; unfold tag_ok, in_int64, in_uint32, NEVER, FOREVER, LLONG_MIN, LLONG_MAX, UINT_MAX, INT_MAX; cbn. repeat split; intros; try discriminate; try (unfold spaced in *; cbn in *; lia).
Qed.

(** Without the clock condition the property fails: a physical action scheduled at a
    tag whose microstep is not zero, with the clock at or behind the current logical time,
    is put before the current tag (both in debug and in release builds). *)
Theorem C21_physical_in_the_past_refuted : forall nd, exists e tr e' h v, future_queue e /\ tag_le (e_cur e) (e_stop e) /\
  sched nd 100 e (Some tr) 0 None = Ok (e', h) /\ 0 < h /\ inserted e e' v /\ tag_lt (ev_tag v) (e_cur e).
Proof.
  intros nd. exists (ex_env (mkTag 100 1) (mkTag 200 0) [] (fun _ => act true 0 0 PDefer)), 0%nat.
  destruct nd; eexists _, _, _; (split; [intros v []|]; split; [unfold tag_le; cbn; lia|]; split; [vm_compute; reflexivity|]; split; [reflexivity|]; split; [reflexivity|]; unfold tag_lt; cbn; lia).
Qed.
Print Assumptions C21_physical_in_the_past_refuted.

(** When the pile-up at successive microsteps runs past the stop tag, the call keeps the reference it
    took although no event holds it: the token is never given back. *)
Theorem C21_stop_leak_refuted : exists e tr t e' k, sched false 0 e (Some tr) 0 (Some t) = Ok (e', 0) /\ e_q e' = e_q e /\
  ts_tok (e_tok e) t = Some k /\ tk_ref k = 0 /\ ts_tok (e_tok e') t = Some (with_ref k 1).
Proof.
  set (s := match top_run ex_tok [OInit 0 4; ONew 0 [5]] with Ok s => s | UB => ex_tok end).
  set (e := mkEnv (mkTag 10 0) (mkTag 10 1) [mkEv (mkTag 10 1) (Some 0%nat) None] (fun _ => act false 0 0 PDefer) 1 s true).
  exists e, 0%nat, 1%nat. eexists _, _. split; [vm_compute; reflexivity|]. repeat split.
Qed.
Print Assumptions C21_stop_leak_refuted.

(** Called when the current tag is already past the stop tag, it gives back a reference it never
    took: here the one held by the port, whose token is recycled under it. *)
Theorem C21_release_after_stop_refuted : exists e tr t e', tp_tok (ts_tmpl (e_tok e) 0) = Some t /\ usable (e_tok e) t /\
  sched false 0 e (Some tr) 0 (Some t) = Ok (e', 0) /\ tp_tok (ts_tmpl (e_tok e') 0) = Some t /\ In t (ts_bin (e_tok e')).
Proof.
  set (s := match top_run ex_tok [OInit 0 4; OSet 0 [7]] with Ok s => s | UB => ex_tok end).
  exists (mkEnv (mkTag 10 0) (mkTag 5 0) [] (fun _ => act false 0 0 PDefer) 1 s true), 0%nat, 0%nat. eexists.
  split; [reflexivity|]. split; [split; [vm_compute; discriminate|vm_compute; tauto]|]. split; [vm_compute; reflexivity|]. split; [reflexivity|]. vm_compute. auto.
Qed.
Print Assumptions C21_release_after_stop_refuted.

(** ** C22.  Over any history, the events given to an action with minimum spacing [s] are
    pairwise at least [s] apart, in the order in which they were scheduled. *)
Theorem C22_min_spacing : forall nd tr s os e, 0 < s -> tg_period (e_tr e tr) = s -> tg_timer (e_tr e tr) = false ->
  tg_last (e_tr e tr) = NEVER_TAG -> spacing_run nd tr e os -> apart s (tags_given nd tr e os).
Proof.
  intros nd tr s os e Hs Hp Ht Hl Hr. refine (proj1 (spacing_all nd tr s os e _ _ Hr)); [repeat split; assumption|]. left. rewrite Hl. reflexivity.
Qed.
Print Assumptions C22_min_spacing.

(** A call that comes too early after the last scheduled event: drop leaves the queue and the action
    unchanged; replace gives the last event the new value if it is still pending (and defers
    otherwise); defer schedules at exactly the earliest allowed time. *)
Theorem C22_policies : forall nd now e tr extra tok e' h, sched nd now e (Some tr) extra tok = Ok (e', h) -> sched_ok nd now e tr extra ->
  tag_le (e_cur e) (e_stop e) ->
  let g := e_tr e tr in spaced g -> ttime (tg_last g) <> NEVER -> ttime (intended now e tr extra) < ttime (tg_last g) + tg_period g ->
  (if tg_phys g then ttime (e_cur e) < now + total_delay g extra else ttime (e_cur e) + total_delay g extra < FOREVER) ->
  let earliest := mkTag (ttime (tg_last g) + tg_period g) 0 in
  match tg_policy g with
  | PDrop => e_q e' = e_q e /\ e_tr e' = e_tr e /\ h = 0
  | PDefer => (e_q e' = e_q e /\ h = 0 /\ tag_lt (e_stop e) earliest) \/ (inserted e e' (mkEv earliest (Some tr) tok) /\ h = e_handle e)
  | PReplace => if find_ev (e_q e) (Some tr) (tg_last g) then revalued e e' tr (tg_last g) tok /\ e_tr e' = e_tr e /\ h = 0
                else (e_q e' = e_q e /\ h = 0 /\ tag_lt (e_stop e) earliest) \/ (inserted e e' (mkEv earliest (Some tr) tok) /\ h = e_handle e)
  end.
Proof.
  intros nd now e tr extra tok e' h H Hok Hst g Hsp HN He Hr earliest.
  assert (Eb : base nd now e g extra = intended now e tr extra).
  { unfold intended. fold g. destruct (tg_phys g) eqn:Eph; [unfold base; rewrite Eph; reflexivity|].
    destruct (base_logical _ _ _ _ _ Hok Eph) as (E & _). fold g in E. rewrite E. pose proof (offset_ok _ _ _ _ _ Hok) as Hd. fold g in Hd. destruct Hok as (H1 & H2 & _ & _ & H5). fold g in H5. rewrite Eph in H5.
    unfold delay_tag. rewrite (Z.mod_small (tmicro (e_cur e) + 1)) by (tag_consts; unfold two32; lia). repeat case_if; try lia; try reflexivity; tag_consts; lia. }
  assert (Hlt : ttime (e_cur e) <= ttime (base nd now e g extra)).
  { destruct (tg_phys g) eqn:Eph; [unfold base; rewrite Eph; cbn; lia|]. destruct (base_logical _ _ _ _ _ Hok Eph) as (_ & K & _). unfold tag_lt in K. fold g in K. lia. }
  assert (Hea : tag_lt (e_cur e) earliest) by (left; cbn [earliest ttime]; rewrite <- Eb in He; lia).
  assert (Es : settle nd e earliest = earliest) by (apply settle_id; exact Hea).
  rewrite <- Eb in He. destruct Hsp as (Hp & Htm).
  unfold sched in H. apply after_stop_spec in Hst. rewrite Hst in H. bind_inv H. rename x into s1. cbv zeta in H.
  change (e_tr (with_tok e s1)) with (e_tr e) in H. fold g in H. bind_inv H. apply total_delay_ok in E0. subst x. bind_inv H.
  assert (E1 : x = base nd now e g extra).
  { unfold base. destruct (tg_phys g); [|injection E0 as <-; reflexivity]. unfold c_add64 in E0. destruct (in_int64b _); cbn [bind] in E0; [|discriminate].
    injection E0 as <-. reflexivity. }
  subst x. clear E0. change (e_q (with_tok e s1)) with (e_q e) in H.
  destruct (tg_period g <=? 0) eqn:Ep; [lia|]. rewrite Htm in H. cbn [negb andb] in H. destruct (ttime (tg_last g) =? NEVER) eqn:En; [lia|]. cbn [negb] in H.
  bind_inv H. unfold c_add64 in E0. destruct (in_int64b _); [|discriminate]. injection E0 as <-.
  destruct (ttime (base nd now e g extra) <? ttime (tg_last g) + tg_period g) eqn:El; [|lia].
  assert (Fin : sched_finish nd (with_tok e s1) tr earliest tok = Ok (e', h) ->
    (e_q e' = e_q e /\ h = 0 /\ tag_lt (e_stop e) earliest) \/ (inserted e e' (mkEv earliest (Some tr) tok) /\ h = e_handle e)).
  { intros H0. pose proof H0 as H1. apply finish_inv in H1. destruct H1 as (_ & [(B1 & B2 & B3 & B4)|(B1 & B2 & B3 & B4 & _)]); rewrite ?Es in *.
    - left. split; [exact B1|]. split; [exact B3|]. apply tag_not_le. intros Hle.
      unfold sched_finish in H0. cbv zeta in H0.
      change (if tag_compare (clamp_now nd (with_tok e s1) earliest) (e_cur (with_tok e s1)) =? 0 then bump (clamp_now nd (with_tok e s1) earliest)
              else clamp_now nd (with_tok e s1) earliest) with (settle nd e earliest) in H0. rewrite Es in H0.
      change (after_stop (with_tok e s1)) with (after_stop e) in H0. apply after_stop_spec in Hle. rewrite Hle in H0.
      unfold take_handle in H0. change (e_handle (insert_ev _ _)) with (e_handle e) in H0. destruct (e_handle e <? INT_MAX); [|discriminate].
      injection H0 as <- _. cbn [with_handle insert_ev with_q with_last with_tok e_q] in B1. apply (f_equal (@length _)) in B1. cbn in B1. lia.
    - right. split; [exact B1|exact B4]. }
  destruct (tg_policy g) eqn:Epol.
  - apply Fin, H.
  - bind_inv H. injection H as <- <-. apply release_inv in E0. destruct E0 as (s' & ->). auto.
  - destruct (find_ev (e_q e) (Some tr) (tg_last g)) as [v|] eqn:Ef; [|apply Fin, H].
    bind_inv H. injection H as <- <-. unfold replace_ev_token in E0.
    assert (K : exists s2, x = with_q (with_tok e s2) (set_ev_tok (e_q e) (Some tr) (tg_last g) tok)).
    { destruct (opt_eqb (ev_tok v) tok); cbn [bind] in E0; [injection E0 as <-; exists s1; reflexivity|].
      bind_inv E0. injection E0 as <-. apply release_inv in E1. destruct E1 as (s2 & ->). exists s2. reflexivity. }
    destruct K as (s2 & ->). split; [|auto]. eapply replace_revalued; [reflexivity|exact Ef].
Qed.
Print Assumptions C22_policies.

Definition sp_env (p : policy) := ex_env (mkTag 100 0) (mkTag 500 0) [] (fun n => if Nat.eqb n 0 then act false 0 10 p else act true 0 0 PDefer).
Definition sp_ops := [Sched 0 0 0 None; Sched 0 0 3 None; Sched 101 1 4 None; Advance (mkTag 100 1); Sched 0 0 0 None; Advance (mkTag 105 0); Sched 0 0 30 None].
Example C22_ex : (forall p, spacing_run false 0 (sp_env p) sp_ops) /\
  tags_given false 0 (sp_env PDefer) sp_ops = [mkTag 100 1; mkTag 110 0; mkTag 120 0; mkTag 135 0] /\
  tags_given false 0 (sp_env PDrop) sp_ops = [mkTag 100 1; mkTag 135 0] /\
  tags_given false 0 (sp_env PReplace) sp_ops = [mkTag 100 1; mkTag 110 0; mkTag 135 0].
Proof.
  split; [|vm_compute; repeat split]. intros p. apply spacing_runb_ok. destruct p; vm_compute; reflexivity.
Qed.

(** ** C23.  Handles.  Full statement: a call returns a positive handle exactly when it inserts an event.
    Proved: a positive handle means that one event was inserted; a call that does not insert
    returns a non-positive value; and a call that inserts without a positive handle is one whose intended tag
    was already taken by an event of the same action (the missing case, refuted below). *)
Theorem C23_handle_partial : forall nd now e tr extra tok e' h, 0 < e_handle e -> sched nd now e (Some tr) extra tok = Ok (e', h) ->
  0 < e_handle e' /\ (0 < h -> exists t, inserted e e' (mkEv t (Some tr) tok)) /\
  ((forall v, ~ inserted e e' v) -> h <= 0) /\
  (forall v, inserted e e' v -> h <= 0 -> exists t, In (Some tr, t) (keys (e_q e)) /\ ttime t = ttime (ev_tag v)).
Proof.
  intros nd now e tr extra tok e' h Hh H. apply sched_call in H. destruct H as (_ & [A _ B D|v A _ _ _ _ B D|t A _ _ _ G I B D|b A _ _ _ B D F]).
  - subst h. rewrite D. repeat split; try lia. intros v Hv. unfold inserted in Hv. rewrite A in Hv. apply (f_equal (@length _)) in Hv. cbn in Hv. lia.
  - subst h. rewrite D. repeat split; try lia. intros w Hv. unfold inserted in Hv. rewrite A in Hv. apply (f_equal (@length _)) in Hv. rewrite set_ev_tok_length in Hv. cbn in Hv. lia.
  - subst h. rewrite D. repeat split; try lia. intros w Hv _. unfold inserted in Hv. rewrite A in Hv. injection Hv as <-.
    exists (base nd now e (e_tr e tr) extra). split; [exact G|]. destruct (first_free_spec _ _ _ _ _ I) as (_ & k & _ & -> & _). cbn [ev_tag]. symmetry. apply bumps_time.
  - subst h. split; [rewrite F; destruct (e_handle e + 1 <? 0) eqn:E; lia|]. split; [intros _; eexists; exact A|]. split; [intros Hn; destruct (Hn _ A)|]. intros; lia.
Qed.
Print Assumptions C23_handle_partial.
Theorem C23_handle_refuted : exists e tr e' v, sched false 0 e (Some tr) 5 None = Ok (e', 0) /\ inserted e e' v.
Proof. exists ex_e, 0%nat. eexists _, _. split; [vm_compute; reflexivity|]. reflexivity. Qed.
Print Assumptions C23_handle_refuted.
(** For messages at explicit tags handles are exact. *)
Theorem C23_handle_at_tag : forall e tr t tok e' h, 0 < e_handle e -> sched_at e tr t tok = Ok (e', h) ->
  0 < e_handle e' /\ (0 < h <-> exists v, inserted e e' v).
Proof.
  intros e tr t tok e' h Hh H. apply at_call in H. destruct H as (_ & _ & [A B D|v A _ _ B D|t2 A _ _ _ B D F]).
  - rewrite D. split; [exact Hh|]. split; [lia|]. intros (v & Hv). unfold inserted in Hv. rewrite A in Hv. apply (f_equal (@length _)) in Hv. cbn in Hv. lia.
  - rewrite D. split; [exact Hh|]. split; [lia|]. intros (w & Hv). unfold inserted in Hv. rewrite A in Hv. apply (f_equal (@length _)) in Hv. rewrite set_ev_tok_length in Hv. cbn in Hv. lia.
  - split; [rewrite F; destruct (e_handle e + 1 <? 0) eqn:E; lia|]. split; [intros _; eexists; exact A|lia].
Qed.
Print Assumptions C23_handle_at_tag.

(** Uniqueness: over every disciplined history no two pending events have the same action and tag, and
    every pending event is in the future. *)
Theorem C23_one_event_per_tag : forall nd os e e', e_q e = [] -> (forall tr, tg_last (e_tr e tr) = NEVER_TAG) ->
  unique_run nd e os -> srun nd e os = Ok e' -> NoDup (keys (e_q e')) /\ forall v, In v (e_q e') -> tag_lt (e_cur e') (ev_tag v).
Proof.
  intros nd os e e' Hq Hl Hr H.
  assert (I : uinv e).
  { constructor; [rewrite Hq; constructor|intros v; rewrite Hq; intros []|]. intros tr _. split; [left; rewrite Hl; reflexivity|]. rewrite Hq. intros t []. }
  pose proof (unique_all nd os e e' I Hr H) as I'. split; [apply I'|apply I'].
Qed.
Print Assumptions C23_one_event_per_tag.

Definition un_env := ex_env (mkTag 100 0) (mkTag 500 0) [] (fun n => if Nat.eqb n 0 then act false 0 0 PDefer else if Nat.eqb n 1 then act true 0 0 PDefer else act false 0 7 PDefer).
Definition un_ops := [Sched 0 0 0 None; Sched 0 0 0 None; Sched 101 1 4 None; Sched 0 2 3 None; Sched 0 2 3 None; At 0 (mkTag 105 0) None; At 0 (mkTag 105 0) None; Advance (mkTag 100 1); Sched 0 0 0 None].
Example C23_ex : unique_run false un_env un_ops /\
  (do! e <- srun false un_env un_ops; Ok (keys (e_q e))) =
    Ok [(Some 0%nat, mkTag 100 3); (Some 0%nat, mkTag 105 1); (Some 0%nat, mkTag 105 0); (Some 2%nat, mkTag 110 0); (Some 2%nat, mkTag 103 0); (Some 1%nat, mkTag 105 0); (Some 0%nat, mkTag 100 2)].
Proof.
  split; [|vm_compute; reflexivity]. apply unique_runb_ok. vm_compute. reflexivity.
Qed.

(** Refuted outside the discipline: two schedule calls on a physical action while the clock still shows the
    current logical time both land on the next microstep. *)
Theorem C23_physical_duplicate_refuted : exists e e', e_q e = [] /\ tag_le (e_cur e) (e_stop e) /\ tmicro (e_cur e) = 0 /\
  srun false e [Sched 100 0 0 None; Sched 100 0 0 None] = Ok e' /\ ~ NoDup (keys (e_q e')).
Proof.
  exists (ex_env (mkTag 100 0) (mkTag 200 0) [] (fun _ => act true 0 0 PDefer)). eexists. split; [reflexivity|]. split; [unfold tag_le; cbn; lia|]. split; [reflexivity|].
  split; [vm_compute; reflexivity|]. cbn. intros H. inversion H; subst. apply H2. left. reflexivity.
Qed.
Print Assumptions C23_physical_duplicate_refuted.

(** ** C24.  Messages at explicit tags.  After execution has started, an event is inserted only strictly after the current
    tag and never after the stop tag, at the requested tag or (when that is taken, policy defer) at the next microstep. *)
Theorem C24_at_tag_in_window : forall e tr t tok e' h v, sched_at e tr t tok = Ok (e', h) -> inserted e e' v -> tag_ok t -> tmicro t < UINT_MAX ->
  tag_le (ev_tag v) (e_stop e) /\ (e_started e = true -> tag_lt (e_cur e) (ev_tag v)) /\ ev_trig v = Some tr /\ ev_tok v = tok /\
  (ev_tag v = t /\ ~ In (Some tr, t) (keys (e_q e)) \/
   ev_tag v = mkTag (ttime t) (tmicro t + 1) /\ In (Some tr, t) (keys (e_q e)) /\ tg_policy (e_tr e tr) = PDefer).
Proof.
  intros e tr t tok e' h v H Hv Ht Hm. apply at_call in H. unfold inserted in Hv.
  assert (Eb : bump t = mkTag (ttime t) (tmicro t + 1)).
  { unfold bump. rewrite Z.mod_small by (tag_consts; unfold two32; lia). reflexivity. }
  destruct H as (_ & _ & [A|w A|t2 A B D F]).
  - rewrite A in Hv. apply (f_equal (@length _)) in Hv. cbn in Hv. lia.
  - rewrite A in Hv. apply (f_equal (@length _)) in Hv. rewrite set_ev_tok_length in Hv. cbn in Hv. lia.
  - rewrite A in Hv. injection Hv as <-. cbn [ev_tag ev_trig ev_tok]. rewrite Eb in D. split; [exact B|]. split; [|split; [reflexivity|split; [reflexivity|exact D]]].
    intros Hs. specialize (F Hs). destruct D as [(-> & _)|(-> & _)]; [exact F|]. unfold tag_lt in *. cbn. lia.
Qed.
Print Assumptions C24_at_tag_in_window.

(** Earlier messages: under defer and drop every pending event stays as it is; under replace only the event of the same
    action and tag gets the new value. *)
Theorem C24_earlier_messages_kept : forall e tr t tok e' h, sched_at e tr t tok = Ok (e', h) ->
  (tg_policy (e_tr e tr) <> PReplace -> forall v, In v (e_q e) -> In v (e_q e')) /\
  (forall v, key v <> (Some tr, t) -> In v (e_q e) -> In v (e_q e')) /\
  (forall v, In v (e_q e') -> In v (e_q e) \/ (ev_trig v = Some tr /\ ev_tok v = tok)).
Proof.
  intros e tr t tok e' h H. apply at_call in H. destruct H as (_ & _ & [A|w A Hf Hp|t2 A B D F]).
  - rewrite A. auto.
  - split; [congruence|]. destruct (replace_revalued e e' tr t tok w A Hf) as (a & x & b & E1 & E2 & E3). rewrite E1, E3. split.
    + intros v Hk. rewrite !in_app_iff. cbn [In]. intros [Q|[Q|Q]]; auto. subst. contradiction.
    + intros v. rewrite !in_app_iff. cbn [In]. intros [Q|[Q|Q]]; auto. subst. right. auto.
  - rewrite A. repeat split; try (intros; right; assumption). intros v [<-|Hv]; auto.
Qed.
Print Assumptions C24_earlier_messages_kept.

(** A message at a free tag after the current one and within the stop tag is always accepted. *)
Theorem C24_message_accepted : forall e tr t tok e' h, sched_at e tr t tok = Ok (e', h) -> tag_lt (e_cur e) t -> tag_le t (e_stop e) ->
  ~ In (Some tr, t) (keys (e_q e)) -> inserted e e' (mkEv t (Some tr) tok) /\ h = e_handle e.
Proof.
  intros e tr t tok e' h H Hc Hs Hn. pose proof H as H0. apply at_call in H. destruct H as (_ & _ & [A B|w A Hf|t2 A B [(-> & D)|(_ & D & _)] F G]); try contradiction.
  - exfalso. unfold sched_at in H0. destruct (tag_compare t (e_cur e) <=? 0) eqn:E; [apply Z.leb_le, tag_compare_le in E; apply tag_not_lt in E; contradiction|]. cbn [andb] in H0.
    bind_inv H0. cbv zeta in H0. change (after_stop (with_tok e x)) with (after_stop e) in H0. apply after_stop_spec in Hs. rewrite Hs in H0. change (e_q (with_tok e x)) with (e_q e) in H0.
    destruct (find_ev (e_q e) (Some tr) t) as [v|] eqn:Ef; [apply find_ev_some in Ef; destruct Ef as (Hv & Hk); apply Hn; rewrite <- Hk; apply (in_map key), Hv|].
    unfold take_handle in H0. destruct (_ <? INT_MAX); [|discriminate]. injection H0 as <- _. cbn in A. apply (f_equal (@length _)) in A. cbn in A. lia.
  - exfalso. apply Hn. apply find_ev_some in Hf. destruct Hf as (Hv & <-). apply (in_map key), Hv.
  - auto.
Qed.
Print Assumptions C24_message_accepted.

Theorem C24_pending_values_live : forall C e E tr t tok, tinv (e_tok e) C E -> held_by E (e_q e) -> tok_ok (e_tok e) C E tok -> e_handle e < INT_MAX ->
  exists e' h, sched_at e tr t tok = Ok (e', h) /\
    forall v u, In v (e_q e') -> ev_tok v = Some u -> usable (e_tok e') u /\ forall p, payload (e_tok e') u = Some p -> ts_pay (e_tok e') p <> None.
Proof.
  intros C e E tr t tok I Hq Ht Hh. destruct (sched_at_defined C e E tr t tok I Hq Ht Hh) as (e' & h & A & E' & I' & Hq').
  exists e', h. split; [exact A|]. intros v u Hv Hvt. pose proof (held_in _ _ _ _ Hq' Hv Hvt) as Hin. pose proof (holders_E (e_tok e') C E' u Hin) as Hpos.
  split; [eapply held_usable; [apply I'|exact Hpos]|]. intros p Hp. unfold payload in Hp. destruct (ts_tok (e_tok e') u) as [k|] eqn:Ek; [|discriminate].
  destruct (c_val _ _ (ti_core _ _ _ I') u k p Ek Hp) as (d & Hd & _). congruence.
Qed.
Print Assumptions C24_pending_values_live.

Definition at_env (p : policy) := ex_env (mkTag 100 0) (mkTag 500 0) [] (fun _ => act false 0 0 p).
Example C24_ex :
  (do! e <- srun false (at_env PDefer) [At 0 (mkTag 100 1) None; At 0 (mkTag 100 1) None; At 0 (mkTag 100 0) None; At 0 (mkTag 600 0) None]; Ok (keys (e_q e))) =
     Ok [(Some 0%nat, mkTag 100 2); (Some 0%nat, mkTag 100 1)] /\
  (do! e <- srun false (at_env PDrop) [At 0 (mkTag 100 1) None; At 0 (mkTag 100 1) None]; Ok (keys (e_q e))) = Ok [(Some 0%nat, mkTag 100 1)].
Proof. vm_compute. split; reflexivity. Qed.

(** Three messages for the same tag: the second and third get the same tag, so the action holds two events at
    one tag and only one of the two values can be delivered. *)
Theorem C24_third_message_refuted : exists e t e', e_q e = [] /\ tag_lt (e_cur e) t /\ tg_policy (e_tr e 0%nat) = PDefer /\
  srun false e [At 0 t None; At 0 t None; At 0 t None] = Ok e' /\ length (e_q e') = 3%nat /\ ~ NoDup (keys (e_q e')).
Proof.
  exists (at_env PDefer), (mkTag 100 1). eexists. split; [reflexivity|]. split; [unfold tag_lt; cbn; lia|]. split; [reflexivity|].
  split; [vm_compute; reflexivity|]. split; [reflexivity|]. cbn. intros H. inversion H; subst. apply H2. left. reflexivity.
Qed.
Print Assumptions C24_third_message_refuted.
