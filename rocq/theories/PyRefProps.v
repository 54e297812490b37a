(** C81: a Python object stays alive while anything refers to it, and is released when
    nothing does. *)
From Verif Require Import Base PyRef PyRefSpec PyRefProofs.
From Coq Require Import Lia.
Open Scope nat_scope.

(** As long as the values of port and action objects are read only while something still
    refers to them, and such objects are never given up for good, nothing is undefined, and
    every object that Python code, a port, an action or an event refers to is alive. *)
Theorem C81_alive_partial : forall l, careful init l ->
  exists s, run init l = Ok s /\ forall o, held s o -> 0 < rc s o.
Proof.
  intros l C. destruct init_Inv as [I _]. destruct (run_spec l init [] _ I C) as (s & L & X & r & I1 & _).
  exists s. split; [exact r|]. intros o. exact (held_rc s _ _ _ o I1).
Qed.

(** If, moreover, actions are scheduled without values, an object is freed exactly when
    nothing refers to it anymore. *)
Theorem C81_released_partial : forall l, careful init l -> Forall ports_only l ->
  exists s, run init l = Ok s /\ forall o, 0 < rc s o <-> held s o.
Proof.
  intros l C f. destruct init_Inv as [I ap]. destruct (run_spec l init [] _ I C) as (s & L & X & r & I1 & h).
  destruct (h f ap) as (-> & -> & _). exists s. split; [exact r|]. intros o. split.
  - now apply released with (1 := I1).
  - exact (held_rc s _ _ _ o I1).
Qed.
(** An object is set, sent through a connection with delay and read at the other end, and
    freed when the port there is set again. *)
Definition ex : list op :=
  [ONew; OConvert; OSet 0 0; ODrop 0; ODelay; OPop; OExpose; OForward; OConvert; ORead 1; ODrop 0; ONew; OSet 0 1; OSched 0 None; OPop; OExpose].
Example C81_nonvacuous : careful init ex /\ Forall ports_only ex /\
  exists s, run init ex = Ok s /\ rc s 0 = 0 /\ rc s 1 = 2.
Proof.
  split.
  - unfold ex. cbn [careful careful_op]. repeat (split; [exact Logic.I|]; intros ? e; vm_compute in e; injection e as <-).
    split.
    + intros c h. vm_compute in h. injection h as <-. cbn. right. exists 1, (mkTok (Some 0) 3 true). split; [now left|]. now split.
    + intros ? e; vm_compute in e; injection e as <-.
      repeat (split; [exact Logic.I|]; intros ? e; vm_compute in e; injection e as <-). exact Logic.I.
  - split; [repeat constructor|]. eexists. split; [vm_compute; reflexivity|]. split; reflexivity.
Qed.

(** A port object keeps a pointer to the value without a reference: if Python code keeps the
    object and reads its value after the port has been set again, the value is gone. *)
Theorem C81_stored_refuted : exists l s, run init l = Ok s /\ (forall c, In c (caps s) -> 0 < k_own c) /\ run init (l ++ [ORead 1]) = UB.
Proof.
  exists [ONew; OConvert; OSet 0 0; ODrop 0; OConvert; ONew; OSet 0 1]. eexists. split; [vm_compute; reflexivity|]. split; [|reflexivity].
  intros c [<-|[<-|[]]]; cbn; lia.
Qed.

(** When the last reference to a port object goes it drops a reference to the value that it
    never had: the value is freed while the port still has it.  And objects made for
    reactions are then freed in the wrong way. *)
Theorem C81_dealloc_refuted :
  (exists l s c s', run init l = Ok s /\ nth_error (caps s) 0 = Some c /\ drop_value s (k_val c) = Ok s' /\ held s' 0 /\ rc s' 0 = 0) /\
  (exists l s c, run init l = Ok s /\ nth_error (caps s) 0 = Some c /\ k_rc c = 1 /\ k_own c = 1 /\ step s (ODropCap 0) = UB).
Proof.
  split.
  - exists [ONew; OConvert; OSet 0 0; ODrop 0]. eexists _, _, _. split; [vm_compute; reflexivity|]. split; [reflexivity|]. split; [reflexivity|].
    split; [|reflexivity]. right. exists 1, (mkTok (Some 0) 1 true). split; [now left|]. now split.
  - exists [OConvert]. eexists _, _. split; [vm_compute; reflexivity|]. split; [reflexivity|]. now split.
Qed.

(** Port objects that are obtained by index or iteration are never freed: there always is one
    reference more than Python code owns. *)
Theorem C81_item_leak_refuted :
  (forall l s c, Forall no_self l -> run init l = Ok s -> In c (caps s) -> k_gc c = false -> k_rc c = S (k_own c)) /\
  (exists l s c, run init l = Ok s /\ In c (caps s) /\ k_own c = 0 /\ k_rc c = 1).
Proof.
  split.
  - intros l s c f r h g. assert (q : surplus s). { apply (surplus_run l init s); [now intros c'|exact f|exact r]. } now apply q.
  - exists [OItem; ODropCap 0]. eexists _, _. split; [vm_compute; reflexivity|]. split; [now left|]. now split.
Qed.

(** p[i] for a port that is not a multiport returns the port object without a new reference:
    using it once more than there are references frees it while it is in use. *)
Theorem C81_self_refuted : exists l s c, run init l = Ok s /\ nth_error (caps s) 0 = Some c /\ k_rc c = 1 /\ k_own c = 2 /\
  run init (l ++ [ODropCap 0]) = UB.
Proof. exists [OConvert; OSelf 0]. eexists _, _. split; [vm_compute; reflexivity|]. split; [reflexivity|]. now split. Qed.

(** A value given to an action is never freed, although nothing refers to it anymore. *)
Theorem C81_action_leak_refuted : exists l s, careful init l /\ run init l = Ok s /\ 0 < rc s 0 /\ ~ held s 0.
Proof.
  exists [ONew; OConvertAct; OSched 0 (Some 0); ODrop 0; OPop; OSched 0 None; OPop]. eexists. split; [|split; [vm_compute; reflexivity|split]].
  - cbn [careful careful_op]. repeat (split; [exact Logic.I|]; intros ? e; vm_compute in e; injection e as <-). exact Logic.I.
  - cbn. lia.
  - intros [[]|(i & t & [h|[h|[h|[]]]] & _)]; discriminate.
Qed.

(** A value given to an action is lost if the previous event of the action had none. *)
Theorem C81_action_dropped_refuted : exists l s, careful init l /\ run init l = Ok s /\
  l = [ONew; OConvertAct; OSched 0 None; OPop; OExpose; OSched 0 (Some 0); OPop; OExpose] /\ action_value s = CNone.
Proof.
  eexists _, _. split; [|split; [|split; [reflexivity|]]].
  - cbn [careful careful_op]. repeat (split; [exact Logic.I|]; intros ? e; vm_compute in e; injection e as <-). exact Logic.I.
  - vm_compute. reflexivity.
  - reflexivity.
Qed.
(** Otherwise it is what the action object shows when the event is handled, after those that
    were scheduled before. *)
Theorem C81_action_value_partial : forall l1 s k o i, careful init l1 -> run init l1 = Ok s -> In o (py s) -> act s = Some i ->
  exists s1, step s (OSched k (Some o)) = Ok s1 /\
  forall l2 s2, careful s1 l2 -> run s1 l2 = Ok s2 -> pops l2 = length (queue s) ->
  exists s3, run s2 [OPop; OExpose] = Ok s3 /\ action_value s3 = CObj o.
Proof.
  intros l1 s k o i C r ho a. destruct init_Inv as [I0 _]. destruct (run_spec l1 init [] _ I0 C) as (s' & L & X & r' & I & _).
  rewrite r in r'. injection r' as <-. destruct (sched_value s k o L X i I ho a) as (s1 & j & e & q & v).
  exists s1. split; [exact e|]. intros l2 s2 C2 r2 p.
  destruct (step_spec s (OSched k (Some o)) L X I Logic.I) as (s1' & L1 & X1 & e' & I1 & _). rewrite e in e'. injection e' as <-.
  destruct (run_keep l2 s1 L1 X1 s2 (queue s) j [] I1 C2 r2 q) as [v2 (post & q2)]; [lia|].
  rewrite p, skipn_all in q2. cbn [app] in q2.
  destruct (run_spec l2 s1 L1 X1 I1 C2) as (s2' & L2 & X2 & r2' & I2 & _). rewrite r2 in r2'. injection r2' as <-.
  destruct (pop_value s2 L2 X2 j post I2 q2) as (s3 & e3 & a3 & v3).
  destruct (step_spec s2 OPop L2 X2 I2 Logic.I) as (s3' & L3 & X3 & e3' & I3 & _). rewrite e3 in e3'. injection e3' as <-.
  destruct (expose_value s3 L3 X3 j I3 a3) as (s4 & e4 & a4 & b4 & v4).
  exists s4. cbn [run]. rewrite e3. cbn [bind]. rewrite e4. cbn [bind]. split; [reflexivity|].
  unfold action_value. rewrite a4, b4. assert (t : token_value s4 (Some j) = Some o) by (change (tv s4 j = Some o); congruence). now rewrite t.
Qed.
(** Two values in the queue. *)
Example C81_action_value_nonvacuous :
  exists s s', run init [ONew; ONew; OConvertAct; OSched 0 (Some 0)] = Ok s /\ In 1 (py s) /\ act s = Some 0 /\ length (queue s) = pops [ODrop 1; OPop; OExpose] /\
  run s [OSched 0 (Some 1); ODrop 1; OPop; OExpose; OPop; OExpose] = Ok s' /\ action_value s' = CObj 1.
Proof. eexists _, _. split; [vm_compute; reflexivity|]. split; [now left|]. split; [reflexivity|]. split; [reflexivity|]. split; [vm_compute; reflexivity|reflexivity]. Qed.

(** The value of an action object is not initialized if the struct of the action has no token
    while the trigger has one, as at the start. *)
Theorem C81_uninit_refuted : run init [OConvertAct; ORead 0] = UB.
Proof. reflexivity. Qed.

Print Assumptions C81_alive_partial.
Print Assumptions C81_released_partial.
Print Assumptions C81_stored_refuted.
Print Assumptions C81_dealloc_refuted.
Print Assumptions C81_item_leak_refuted.
Print Assumptions C81_self_refuted.
Print Assumptions C81_action_leak_refuted.
Print Assumptions C81_action_dropped_refuted.
Print Assumptions C81_action_value_partial.
Print Assumptions C81_uninit_refuted.
