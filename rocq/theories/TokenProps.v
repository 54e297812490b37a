(** Property theorems C18-C20: tokens. *)
From Verif Require Import Base Pqueue PqueueProofs Token TokenSpec TokenProofs.
From Coq Require Import Arith.
Open Scope Z_scope.

(** ** C18.  For every disciplined history from program start: no double free, no use
    after free (the run is not UB); every token's reference count is exactly the number
    of its holders, and a held token is allocated, outside the recycling bin, with a
    live payload (if it has one) that no other token shares. *)
Theorem C18_counts_are_holders : forall cfg os, ok_run (tst_init cfg) [] os ->
  exists s, top_run (tst_init cfg) os = Ok s /\
  let E := ext_run (tst_init cfg) [] os in
  forall t, (0 < holders s (copies_of s) E t)%nat ->
    usable s t /\
    (exists k, ts_tok s t = Some k /\ tk_ref k = Z.of_nat (holders s (copies_of s) E t)) /\
    (forall p, payload s t = Some p -> ts_pay s p <> None /\ forall u, payload s u = Some p -> u = t).
Proof.
  intros cfg os H. destruct (run_ok os _ [] (init_tinv cfg) H) as (s & E1 & I). exists s. split; [exact E1|]. cbv zeta. intros t Ht.
  pose proof (ti_core _ _ _ I) as Ic. pose proof (held_usable _ _ _ Ic Ht) as Hu. split; [exact Hu|]. destruct Hu as (Hl & Hb).
  destruct (ts_tok s t) as [k|] eqn:Ek; [|contradiction]. split.
  - exists k. split; [reflexivity|]. apply (c_ref _ _ Ic); assumption.
  - intros p Hp. unfold payload in Hp. rewrite Ek in Hp. destruct (c_val _ _ Ic t k p Ek Hp) as (d & Hd & _). split; [congruence|].
    intros u Hu. unfold payload in Hu. destruct (ts_tok s u) as [ku|] eqn:Eu; [|discriminate]. eapply (c_inj _ _ Ic); eauto.
Qed.
Print Assumptions C18_counts_are_holders.

(** Giving back the last reference frees the payload and takes the token out of use;
    giving back any other reference frees nothing.  No other payload is touched. *)
Theorem C18_release_frees_last : forall cfg os s t, ok_run (tst_init cfg) [] os -> top_run (tst_init cfg) os = Ok s ->
  let E := ext_run (tst_init cfg) [] os in In t E ->
  exists s', top_step s (ODone t) = Ok s' /\
    (holders s (copies_of s) E t = 1%nat ->
       ~ usable s' t /\ (forall p, payload s t = Some p -> ts_pay s' p = None) /\ (forall p, payload s t <> Some p -> ts_pay s' p = ts_pay s p)) /\
    ((1 < holders s (copies_of s) E t)%nat -> payload s' t = payload s t /\ forall p, ts_pay s' p = ts_pay s p).
Proof.
  intros cfg os s t Hok Hr E Hin. destruct (run_ok os _ [] (init_tinv cfg) Hok) as (s0 & E1 & I). rewrite Hr in E1. injection E1 as <-. fold E in I.
  pose proof (holders_E s (copies_of s) E t Hin) as Hpos.
  destruct (done_using_ok s _ t (ti_core _ _ _ I) Hpos) as (s' & E2 & _ & _ & _ & _ & _ & k & Ek & H2 & H1).
  exists s'. cbn [top_step]. rewrite E2. split; [reflexivity|]. unfold payload at 1 2. rewrite Ek. split.
  - intros H. destruct (H1 H) as (A & B & D & _). auto.
  - intros H. destruct (H2 H) as (A & _ & B). split; [|exact B]. unfold payload. rewrite A, Ek. reflexivity.
Qed.
Print Assumptions C18_release_frees_last.

(** No step takes a payload away from a token somebody still holds, except that
    lf_set, lf_schedule_value/copy and template initialisation on port or action [i]
    replace the value of [i]'s own token when nobody else holds it. *)
Theorem C18_payload_kept_while_held : forall cfg os o s s' t p, ok_run (tst_init cfg) [] os -> top_run (tst_init cfg) os = Ok s ->
  let E := ext_run (tst_init cfg) [] os in
  op_ok s (copies_of s) E o -> top_step s o = Ok s' -> payload s t = Some p ->
  (payload s' t = Some p /\ ts_pay s' p <> None) \/
  holders s' (copies_of s') (ext_step s E o) t = 0%nat \/
  (holders s (copies_of s) E t = 1%nat /\ exists i, tp_tok (ts_tmpl s i) = Some t /\ reuses o i).
Proof.
  intros cfg os o s s' t p Hok Hr E Hop Hs Hp. destruct (run_ok os _ [] (init_tinv cfg) Hok) as (s0 & E1 & I). rewrite Hr in E1. injection E1 as <-. fold E in I.
  destruct (step_ok s E o I Hop) as (s1 & E2 & I1). rewrite Hs in E2. injection E2 as <-.
  destruct (step_keeps s E o s' t p I Hop Hs Hp) as [A|[A|A]]; [left|right; left; exact A|right; right; exact A].
  split; [exact A|]. unfold payload in A. destruct (ts_tok s' t) as [k|] eqn:Ek; [|discriminate].
  destruct (c_val _ _ (ti_core _ _ _ I1) t k p Ek A) as (d & Hd & _). congruence.
Qed.
Print Assumptions C18_payload_kept_while_held.

(** At exit, if every event has been given back and every token created was put to use,
    [_lf_free_all_tokens] leaves no token and no payload behind. *)
Theorem C18_no_leak_at_exit : forall cfg os s, ok_run (tst_init cfg) [] os -> top_run (tst_init cfg) os = Ok s ->
  ext_run (tst_init cfg) [] os = [] -> copies_of s = [] -> (forall t, usable s t -> (0 < holders s [] [] t)%nat) ->
  exists s', free_all_tokens s = Ok s' /\ (forall t, ts_tok s' t = None) /\ (forall p, ts_pay s' p = None).
Proof.
  intros cfg os s Hok Hr HE HC Ha. destruct (run_ok os _ [] (init_tinv cfg) Hok) as (s0 & E1 & I). rewrite Hr in E1. injection E1 as <-.
  rewrite HE, HC in I. apply free_all_ok; [exact I|exact Ha|].
  eapply owned_run; [exact (init_tinv cfg)|exact Hok|exact Hr|]. intros p d Hp. discriminate.
Qed.
Print Assumptions C18_no_leak_at_exit.

Definition ex_cfg : nat -> tmpl := fun i => mkTmpl None 4 (if Nat.eqb i 0 then 2 else 1) false.
(** A message set on a port, scheduled on an action, delivered, copied, and released. *)
Definition ex_ops := [OInit 0 4; OInit 1 4; OSet 0 [7; 8]; OHold 0; OSetToken 1 0; ODone 0; OCopy 0; OClear 1; OEndTag; ONew 1 [5]; OSetToken 1 1].
Example C18_ex : ok_run (tst_init ex_cfg) [] ex_ops /\
  (do! s <- top_run (tst_init ex_cfg) ex_ops; Ok (map (fun t => option_map (fun k => (tk_val k, tk_ref k)) (ts_tok s t)) [0; 1; 2; 3]%nat,
     ts_bin s, copies_of s, map (ts_pay s) [0; 1; 2]%nat, ext_run (tst_init ex_cfg) [] ex_ops))
  = Ok ([Some (Some 0%nat, 1); Some (Some 2%nat, 1); None; None], [], [], [Some [7; 8]; None; Some [5]], []).
Proof. split; [apply ok_runb_ok; vm_compute; reflexivity|vm_compute; reflexivity]. Qed.

(** The value returned by the release functions never says that anything was freed:
    line 199 of lf_token.c combines with [&=] where the documentation calls for [|=]. *)
Theorem C18_release_reports_refuted : (forall s o s' r, done_using s o = Ok (s', r) -> r = NOT_FREED) /\
  exists s s' t p, done_using s (Some t) = Ok (s', NOT_FREED) /\ payload s t = Some p /\ ts_pay s p <> None /\ ts_pay s' p = None /\ ~ usable s' t.
Proof.
  split.
  - intros s o s' r E. destruct o as [t|]; [|injection E as _ <-; reflexivity]. unfold done_using in E. destruct (get_tok s t) as [k|]; [|discriminate]. cbn [bind] in E.
    destruct (tk_ref k =? 0); [injection E as _ <-; reflexivity|]. unfold free_token in E. destruct (get_tok _ t) as [k1|]; [|discriminate]. cbn [bind] in E.
    destruct (0 <? tk_ref k1); [injection E as _ <-; reflexivity|]. destruct (free_token_value _ t); [|discriminate]. cbn [bind] in E.
    injection E as _ <-. reflexivity.
  - pose (s := mkTst (fun t => if Nat.eqb t 0 then Some (mkTok (Some 0%nat) 1 0 1 None) else None) 1 (fun p => if Nat.eqb p 0 then Some [3] else None) 1 [] None [] ex_cfg).
    destruct (done_using s (Some 0%nat)) as [[s' r]|] eqn:E; [|discriminate].
    exists s, s', 0%nat, 0%nat. vm_compute in E. injection E as <- <-. split; [vm_compute; reflexivity|]. split; [reflexivity|]. split; [discriminate|]. split; [reflexivity|].
    intros (_ & H). apply H. left; reflexivity.
Qed.
Print Assumptions C18_release_reports_refuted.

(** lf_schedule_value on an action whose token is still held by a pending event makes a
    token with one reference too many: after both events were processed and after the
    final clean-up, the second message is still in memory.  (Ops: two lf_schedule_value
    calls on action 0, then the two events are popped.) *)
Definition ex_two_values := [OInit 0 4; OValue 0 [1]; OHold 0; OValue 0 [2]; OHold 1; OSetToken 0 0; ODone 0; OSetToken 0 1; ODone 1].
Theorem C18_schedule_value_leak_refuted : exists cfg os, ok_run (tst_init cfg) [] os /\ os = ex_two_values /\
  (do! s <- top_run (tst_init cfg) os; do! s' <- free_all_tokens s; Ok (ts_pay s' 0, ts_pay s' 1, option_map tk_ref (ts_tok s' 1)))%nat
  = Ok (None, Some [2], Some 1).
Proof. exists ex_cfg, ex_two_values. split; [apply ok_runb_ok; vm_compute; reflexivity|]. split; [reflexivity|vm_compute; reflexivity]. Qed.
Print Assumptions C18_schedule_value_leak_refuted.

(** lf_set on an output whose previous token was forwarded through another output
    (lf_set_token) overwrites the port's pointer without giving the reference back. *)
Definition ex_forward := [OInit 0 4; OInit 1 4; OSet 0 [1]; OSetToken 1 0; OSet 0 [2]; OEndTag].
Theorem C18_set_after_forward_leak_refuted : exists cfg os, ok_run (tst_init cfg) [] os /\ os = ex_forward /\
  (do! s <- top_run (tst_init cfg) os; do! s' <- free_all_tokens s; Ok (ts_pay s' 0, ts_pay s' 1))%nat = Ok (Some [1], None).
Proof. exists ex_cfg, ex_forward. split; [apply ok_runb_ok; vm_compute; reflexivity|]. split; [reflexivity|vm_compute; reflexivity]. Qed.
Print Assumptions C18_set_after_forward_leak_refuted.

(** Scheduling a new value on an action while its current value is being read (the action
    is present at this tag and its token is the template's) frees the value being read and
    shows later readers in the same tag the value meant for the future. *)
Definition ex_reread := [OInit 0 4; OValue 0 [1]; OHold 0; OSetToken 0 0; ODone 0].
Theorem C18_schedule_value_frees_current_refuted : exists cfg os, ok_run (tst_init cfg) [] os /\ os = ex_reread /\
  (do! s <- top_run (tst_init cfg) os; do! s' <- top_step s (OValue 0 [2%Z]);
   Ok (tp_tok (ts_tmpl s 0), contents s 0, tp_tok (ts_tmpl s' 0), contents s' 0, ts_pay s' 0))%nat
  = Ok (Some 0%nat, Some [1], Some 0%nat, Some [2], None).
Proof. exists ex_cfg, ex_reread. split; [apply ok_runb_ok; vm_compute; reflexivity|]. split; [reflexivity|vm_compute; reflexivity]. Qed.
Print Assumptions C18_schedule_value_frees_current_refuted.

(** ** C19.  The recycling bin never exceeds its limit; releasing this tag's copies never
    reads a freed token, provided the bin has room for them. *)
Theorem C19_bin_bounded : forall cfg os s, ok_run (tst_init cfg) [] os -> top_run (tst_init cfg) os = Ok s ->
  (length (ts_bin s) <= BIN_LIMIT)%nat /\ NoDup (ts_bin s) /\
  forall t, In t (ts_bin s) -> exists k, ts_tok s t = Some k /\ tk_ref k = 0 /\ tk_val k = None.
Proof.
  intros cfg os s Hok Hr. destruct (run_ok os _ [] (init_tinv cfg) Hok) as (s0 & E1 & I). rewrite Hr in E1. injection E1 as <-.
  pose proof (ti_core _ _ _ I) as Ic. split; [apply Ic|]. split; [apply Ic|]. intros t Ht. destruct (c_bin _ _ Ic t Ht) as (k & A & B & D & _). eauto.
Qed.
Print Assumptions C19_bin_bounded.
Theorem C19_end_of_tag_safe_partial : forall cfg os s, ok_run (tst_init cfg) [] os -> top_run (tst_init cfg) os = Ok s ->
  (length (ts_bin s) + length (copies_of s) <= BIN_LIMIT)%nat ->
  exists s', top_step s OEndTag = Ok s' /\ copies_of s' = [] /\
    forall t, In t (copies_of s) -> holders s (copies_of s) (ext_run (tst_init cfg) [] os) t = 1%nat -> holders s' [] (ext_run (tst_init cfg) [] os) t = 0%nat.
Proof.
  intros cfg os s Hok Hr Hroom. destruct (run_ok os _ [] (init_tinv cfg) Hok) as (s0 & E1 & I). rewrite Hr in E1. injection E1 as <-.
  destruct (end_tag_ok _ (ts_fresh s) s _ I (copies_len _ _ _ I) Hroom) as (s' & E2 & I2 & Hl). exists s'. split; [exact E2|].
  split; [exact (copies_of_chain _ _ _ I2)|]. intros t Ht H1. destruct (end_tmpl _ _ _ E2) as (Hr2 & Hm2).
  apply count_in in Ht. unfold holders in *. rewrite (tmpl_holders_frame s s' t Hr2) by (intros i; rewrite Hm2; reflexivity). cbn [count_occ]. lia.
Qed.
Print Assumptions C19_end_of_tag_safe_partial.
Example C19_ex : ok_run (tst_init ex_cfg) [] [OInit 0 4; OSet 0 [7; 8]; OCopy 0; OCopy 0] /\
  (do! s <- top_run (tst_init ex_cfg) [OInit 0 4; OSet 0 [7; 8]; OCopy 0; OCopy 0]; do! s' <- top_step s OEndTag; Ok (copies_of s, ts_bin s', map (ts_pay s') [0; 1; 2]%nat))
  = Ok ([2; 1]%nat, [1; 2]%nat, [Some [7; 8]; None; None]).
Proof. split; [apply ok_runb_ok; vm_compute; reflexivity|vm_compute; reflexivity]. Qed.
(** When this tag's copies (held by nobody else) do not all fit in the bin, the token that
    does not fit is returned to the allocator and its next field is read afterwards. *)
Theorem C19_end_of_tag_overflow : forall cfg os s, ok_run (tst_init cfg) [] os -> top_run (tst_init cfg) os = Ok s ->
  (forall t, In t (copies_of s) -> holders s (copies_of s) (ext_run (tst_init cfg) [] os) t = 1%nat) ->
  (BIN_LIMIT < length (ts_bin s) + length (copies_of s))%nat -> top_step s OEndTag = UB.
Proof.
  intros cfg os s Hok Hr H1 Hb. destruct (run_ok os _ [] (init_tinv cfg) Hok) as (s0 & E1 & I). rewrite Hr in E1. injection E1 as <-.
  cbn [top_step]. eapply end_overflow; [exact I|exact (copies_len _ _ _ I)|exact H1|exact Hb].
Qed.
Print Assumptions C19_end_of_tag_overflow.
(** It happens: 513 writable copies of a shared value made in one tag. *)
Definition ex_full : list top := [OInit 0 4; OSet 0 [1]] ++ repeat (OCopy 0) 513.
Lemma ok_run_app : forall a b s E s1, top_run s a = Ok s1 -> ok_run s E a -> ok_run s1 (ext_run s E a) b -> ok_run s E (a ++ b).
Proof.
  induction a as [|o a IH]; intros b s E s1 R O H; cbn [top_run ok_run ext_run app] in *; [injection R as <-; exact H|].
  destruct O as (O1 & O2). split; [exact O1|]. intros s2 E2. rewrite E2 in R, H. cbn [bind] in R. eapply IH; eauto.
Qed.
Lemma top_run_app : forall a b s, top_run s (a ++ b) = do! s1 <- top_run s a; top_run s1 b.
Proof. induction a as [|o a IH]; intros b s; cbn [top_run app bind]; [reflexivity|]. destruct (top_step s o); [apply IH|reflexivity]. Qed.
Lemma ext_run_app : forall a b s E s1, top_run s a = Ok s1 -> ext_run s E (a ++ b) = ext_run s1 (ext_run s E a) b.
Proof.
  induction a as [|o a IH]; intros b s E s1 R; cbn [top_run ext_run app] in *; [injection R as <-; reflexivity|].
  destruct (top_step s o); [|discriminate]. cbn [bind] in R. apply IH; exact R.
Qed.
Theorem C19_end_of_tag_use_after_free_refuted : exists cfg os s, ok_run (tst_init cfg) [] os /\ top_run (tst_init cfg) os = Ok s /\ top_step s OEndTag = UB.
Proof.
  exists ex_cfg, ex_full.
  destruct (top_run (tst_init ex_cfg) [OInit 0 4; OSet 0 [1]]) as [s0|] eqn:E0; [|discriminate E0].
  assert (O0 : ok_run (tst_init ex_cfg) [] [OInit 0 4; OSet 0 [1]]) by (apply ok_runb_ok; vm_compute; reflexivity).
  destruct (run_ok _ _ [] (init_tinv ex_cfg) O0) as (s0' & E0' & I0). rewrite E0 in E0'. injection E0' as <-.
  assert (X0 : ext_run (tst_init ex_cfg) [] [OInit 0 4; OSet 0 [1]] = []) by (vm_compute; reflexivity). rewrite X0 in I0.
  pose proof E0 as E1. vm_compute in E1.
  destruct (copies_run 513 s0 [] 0 0 (mkTok (Some 0%nat) 1 0 1 None) I0) as (s & R & O & I & X & L & One).
  - injection E1 as <-. reflexivity.
  - injection E1 as <-. reflexivity.
  - injection E1 as <-. discriminate.
  - injection E1 as <-. discriminate.
  - injection E1 as <-. discriminate.
  - injection E1 as <-. intros u [].
  - exists s. unfold ex_full. split; [eapply ok_run_app; [exact E0|exact O0|rewrite X0; exact O]|].
    assert (Rs : top_run (tst_init ex_cfg) ([OInit 0 4; OSet 0 [1]] ++ repeat (OCopy 0) 513) = Ok s) by (rewrite top_run_app, E0; exact R).
    split; [exact Rs|]. cbn [top_step]. eapply end_overflow; [exact I|exact (copies_len _ _ _ I)|exact One|].
    rewrite L. unfold BIN_LIMIT. lia.
Qed.
Print Assumptions C19_end_of_tag_use_after_free_refuted.

(** ** C20.  A writable copy of a port's value: either the caller gets the token itself,
    and then it is the only reference (single reader) or the value has no bytes; or the
    caller gets a different token, held by nobody else, whose payload is new memory with
    the same contents, and nothing else changes. *)
Theorem C20_writable_copy : forall cfg os s i t, ok_run (tst_init cfg) [] os -> top_run (tst_init cfg) os = Ok s ->
  let E := ext_run (tst_init cfg) [] os in
  tp_tok (ts_tmpl s i) = Some t -> contents s t <> None ->
  exists s' r, writable_copy s i = Ok (s', Some r) /\ contents s' r = contents s t /\ contents s' t = contents s t /\
    (forall p d, ts_pay s p = Some d -> ts_pay s' p = Some d) /\
    ((r = t /\ s' = s /\ holders s (copies_of s) E t = 1%nat /\ tp_ndest (ts_tmpl s i) = 1) \/
     (r = t /\ s' = s /\ exists k, ts_tok s t = Some k /\ (tp_esz (ts_tmpl s i) * tk_len k) mod two64 = 0 /\ tp_cctor (ts_tmpl s i) = false) \/
     (r <> t /\ holders s' (copies_of s') E r = 1%nat /\ (forall p, payload s' r = Some p -> ts_pay s p = None) /\
      forall u, u <> r -> payload s' u <> payload s' r)).
Proof.
  intros cfg os s i t Hok Hr E Ht Hc. destruct (run_ok os _ [] (init_tinv cfg) Hok) as (s0 & E1 & I). rewrite Hr in E1. injection E1 as <-. fold E in I.
  destruct (writable_copy_ok s (copies_of s) E i I) as (s' & o & C' & E2 & I2 & _ & _ & H); [cbn; rewrite Ht; exact Hc|].
  rewrite Ht in H. destruct H as (k & r & Ek & -> & H). exists s', r. split; [exact E2|].
  destruct H as [(-> & -> & -> & H1 & H2)|[(-> & -> & -> & H1 & H2)|(H1 & H2 & H3 & H4 & H5 & H6 & H7 & H8 & H9 & H10)]].
  - split; [reflexivity|]. split; [reflexivity|]. split; [auto|]. left. auto.
  - split; [reflexivity|]. split; [reflexivity|]. split; [auto|]. right; left. split; [reflexivity|]. split; [reflexivity|]. exists k. auto.
  - split; [exact H5|]. split; [exact H6|]. split; [exact H8|]. right; right. split; [exact H1|]. rewrite (copies_of_chain _ _ _ I2). split; [exact H10|].
    split; [exact H9|]. intros u Hu Heq. destruct (payload s' r) as [p|] eqn:Ep.
    + unfold payload in Ep, Heq. destruct (ts_tok s' r) as [kr|] eqn:Er; [|discriminate]. destruct (ts_tok s' u) as [ku|] eqn:Eu; [|discriminate].
      apply Hu. eapply (c_inj _ _ (ti_core _ _ _ I2)); eauto.
    + apply Hc. rewrite <- H5. unfold contents, payload in *. destruct (ts_tok s' r) as [kr|]; [|reflexivity]. rewrite Ep. reflexivity.
Qed.
Print Assumptions C20_writable_copy.

(** Writing through the copy changes what no other token's reader sees. *)
Definition write_payload (s : tst) (r : nat) (d : list Z) : tst := match payload s r with Some p => set_pay s p (Some d) | None => s end.
Theorem C20_writes_invisible : forall cfg os s i t d, ok_run (tst_init cfg) [] os -> top_run (tst_init cfg) os = Ok s ->
  tp_tok (ts_tmpl s i) = Some t -> contents s t <> None ->
  forall s' r, writable_copy s i = Ok (s', Some r) ->
  forall u, u <> r -> contents (write_payload s' r d) u = contents s' u.
Proof.
  intros cfg os s i t d Hok Hr Ht Hc s' r Hw u Hu. destruct (run_ok os _ [] (init_tinv cfg) Hok) as (s0 & E1 & I). rewrite Hr in E1. injection E1 as <-.
  destruct (writable_copy_ok s (copies_of s) _ i I) as (s1 & o & C' & E2 & I2 & _); [cbn; rewrite Ht; exact Hc|].
  rewrite Hw in E2. injection E2 as <- <-. unfold write_payload. destruct (payload s' r) as [p|] eqn:Ep; [|reflexivity].
  unfold contents, set_pay; cbn. destruct (ts_tok s' u) as [ku|] eqn:Eu; [|reflexivity]. destruct (tk_val ku) as [q|] eqn:Eq; [|reflexivity].
  apply upd_neq. intros ->. unfold payload in Ep. destruct (ts_tok s' r) as [kr|] eqn:Er; [|discriminate]. apply Hu. eapply (c_inj _ _ (ti_core _ _ _ I2)); eauto.
Qed.
Print Assumptions C20_writes_invisible.
Example C20_ex : let os := [OInit 0 4; OSet 0 [7; 8]] in ok_run (tst_init ex_cfg) [] os /\
  (do! s <- top_run (tst_init ex_cfg) os; do! r <- writable_copy s 0; Ok (tp_tok (ts_tmpl s 0), contents s 0, snd r, contents (fst r) 1,
     contents (write_payload (fst r) 1 [9%Z; 9%Z]) 0))%nat = Ok (Some 0%nat, Some [7; 8], Some 1%nat, Some [7; 8], Some [7; 8]).
Proof. split; [apply ok_runb_ok; vm_compute; reflexivity|vm_compute; reflexivity]. Qed.
