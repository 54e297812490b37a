(** The coordination of enclaves (C56). *)
From Verif Require Import Base Tag TagSpec TagProofs RtiDelays RtiDelaysSpec Rti FederationProofs RtiLocal RtiLocalSpec RtiLocalProofs.
Open Scope Z_scope.

(** ** C56.  An enclave is allowed to advance to a tag only if no upstream enclave can still send it an event at or before
    that tag.

    In every execution, an enclave that has upstream enclaves executes a tag only after a grant that is not before it. *)
Theorem C56_granted : forall tp start stops ops y i, loc_run tp start (init_sys start stops) ops = Some y ->
  e_phase (y_enc y i) = Running -> tp_up tp i <> [] -> tag_lt NEVER_TAG (e_cur (y_enc y i)) ->
  exists t, In (MTag t) (r_sent (y_rti y i)) /\ tag_le (e_cur (y_enc y i)) t.
Proof.
  intros tp start stops ops y i R P U N. destruct (asked_run tp start ops _ _ (asked_init tp start stops) R i) as (A & G). unfold asks in A. rewrite P in A. specialize (A U). destruct (G U) as [K|K].
  - exfalso. rewrite K in A. apply (tag_lt_irrefl NEVER_TAG). eapply tag_lt_le_trans; eassumption.
  - exists (r_granted (y_rti y i)). auto.
Qed.
Print Assumptions C56_granted.

(** In calm executions (RtiLocalSpec.v) - any number of enclaves, any connections without a zero-delay cycle, any events,
    any interleaving of the enclaves - every event that is put into the queue of an enclave after a grant is later than
    the grant, and is later than the tag at which the enclave is.  Missing: the executions that are not calm, for which
    the property fails, as shown below. *)
Theorem C56_safe_partial : forall tp start stops y j, topo_ok tp -> (forall i, (tp_n tp <= i)%nat -> tp_up tp i = []) -> no_zero_delay_cycle tp -> 0 <= start < FOREVER ->
  (forall i, smallb tp start (stops i) = true \/ stops i = FOREVER_TAG) -> calm_run tp start stops y -> grants_respected (r_sent (y_rti y j)).
Proof.
  intros tp start stops y j Htp Hr Hz Hs Hst R. apply (calm_inv tp start Htp Hr Hz Hs) in R; [|intros i; destruct (Hst i) as [K|K]; [left; apply smallb_l, K|right; exact K]].
  destruct R as (R & _). apply (i_local _ _ _ _ R j).
Qed.
Print Assumptions C56_safe_partial.
Theorem C56_not_late_partial : forall tp start stops y j g, topo_ok tp -> (forall i, (tp_n tp <= i)%nat -> tp_up tp i = []) -> no_zero_delay_cycle tp -> 0 <= start < FOREVER ->
  (forall i, smallb tp start (stops i) = true \/ stops i = FOREVER_TAG) -> calm_run tp start stops y -> e_phase (y_enc y j) <> Over -> In g (e_queue (y_enc y j)) -> tag_lt (e_cur (y_enc y j)) g.
Proof.
  intros tp start stops y j g Htp Hr Hz Hs Hst R Ho Hg. apply (calm_inv tp start Htp Hr Hz Hs) in R; [|intros i; destruct (Hst i) as [K|K]; [left; apply smallb_l, K|right; exact K]].
  destruct R as (R & _). pose proof (i_local _ _ _ _ R j) as L. apply (l_queue _ _ _ _ _ L); [|exact Hg]. unfold alive, overb. destruct (e_phase (y_enc y j)); congruence || reflexivity.
Qed.
Print Assumptions C56_not_late_partial.

(** ** Enclaves in a row: 0 to 1 with a delay of 50, 1 to 2 without delay. *)
Definition row : topo :=
  mkTopo 3 (fun i => match i with 1%nat => [(0%nat, 50)] | 2%nat => [(1%nat, NEVER)] | _ => [] end) (fun i => match i with 0%nat => [1%nat] | 1%nat => [2%nat] | _ => [] end).
Lemma row_ok : topo_ok row /\ (forall i, (tp_n row <= i)%nat -> tp_up row i = []) /\ no_zero_delay_cycle row.
Proof.
  split; [|split].
  - split; [|reflexivity]. intros i u d H. do 3 (destruct i as [|i]; [cbn in H; repeat (destruct H as [H|H]; [injection H as <- <-; split; [cbn; lia|vm_compute; intuition discriminate]|]); destruct H|]). destruct H.
  - intros i H. cbn in H. destruct i as [|[|[|i]]]; [lia|lia|lia|reflexivity].
  - assert (K : forall k ds e, upstream_path row (fun _ => true) k ds e -> (k < e)%nat).
    { intros k ds e P. induction P as [k d e H _|k d v ds e H _ P IH].
      - destruct e as [|[|[|e]]]; cbn in H; try destruct H as [H|[]]; try injection H as <- <-; try destruct H; lia.
      - assert (k < v)%nat; [|lia]. destruct v as [|[|[|v]]]; cbn in H; try destruct H as [H|[]]; try injection H as <- <-; try destruct H; lia. }
    intros e ds P. apply K in P. lia.
Qed.
Definition keepalive : nat -> tag := fun _ => FOREVER_TAG.
Definition T (t : Z) : tag := mkTag t 0.
Definition view (r : option sys) (i : nat) : option (list rmsg * tag * list tag) := match r with Some y => Some (r_sent (y_rti y i), e_cur (y_enc y i), e_queue (y_enc y i)) | None => None end.

(** Each enclave executes the start tag and schedules its next event. *)
Definition warm_up : list lop :=
  [ERead 0; ERecord 0; EStart 0; ESched 0 (T 100); EComplete 0; ELtc 0; ERead 0; ERecord 0; EStart 0;
   ERead 1; ERecord 1; EStart 1; ESched 1 (T 1000); EComplete 1; ELtc 1;
   ERead 2; ERecord 2; EStart 2; ESched 2 (T 900); EComplete 2; ELtc 2].
(** Enclave 0 sends to 1 at 100; the event at 150 is executed by 1, which sends to 2; 2 executes 150 and then 900. *)
Definition good_run : list lop :=
  warm_up ++ [ERead 1; ERecord 1; ERead 2; ERecord 2; ESend 0 1 50; ESched 0 (T 2000); EComplete 0; ELtc 0; ERead 0; ERecord 0; EReturn 1; ERead 1; ERecord 1; EStart 1; ESend 1 2 NEVER; EComplete 1; ELtc 1; ERead 1; ERecord 1; EReturn 2; ERead 2; ERecord 2; EStart 2].
Example C56_ex : calm_list row 0 (init_sys 0 keepalive) good_run = true /\
  view (loc_run row 0 (init_sys 0 keepalive) good_run) 2 = Some ([MTag (T 0); MMsg (T 150); MTag (T 150)], T 150, [T 900]) /\
  exists y, calm_run row 0 keepalive y /\ view (Some y) 2 = Some ([MTag (T 0); MMsg (T 150); MTag (T 150)], T 150, [T 900]) /\ e_phase (y_enc y 2) = Running.
Proof.
  assert (C : calm_list row 0 (init_sys 0 keepalive) good_run = true) by now vm_compute.
  assert (V : option_map (fun y => (view (Some y) 2, e_phase (y_enc y 2))) (loc_run row 0 (init_sys 0 keepalive) good_run) = Some (Some ([MTag (T 0); MMsg (T 150); MTag (T 150)], T 150, [T 900]), Running)) by now vm_compute.
  destruct (loc_run row 0 (init_sys 0 keepalive) good_run) as [y|] eqn:E; [|discriminate V]. cbn [option_map] in V. split; [exact C|]. injection V as V1 V2 V3 V4. split; [unfold view; rewrite V1, V2, V3; reflexivity|].
  exists y. split; [eapply calm_list_run; [apply calm_init|exact C|exact E]|]. split; [unfold view; rewrite V1, V2, V3; reflexivity|exact V4].
Qed.

(** An event that arrives too late. *)
Definition late (y : sys) (j : nat) : Prop := exists g, In g (e_queue (y_enc y j)) /\ tag_lt g (e_cur (y_enc y j)).
Definition tame (o : lop) : bool := match o with EPhysical _ _ | EStarve _ | EStop _ _ => false | _ => true end.

(** The full property fails: a tag is read in the critical section of the enclave, and recorded in that of the RTI.
    Enclave 1 reads its next tag, 1000.  Then 0 puts an event at 150 into its queue, completes 100 and goes on to 2000.
    Then the RTI records the 1000: it lets 2 advance to 900, although 1 has the event at 150, which it executes before
    1000, and sends to 2. *)
Definition race_run : list lop :=
  warm_up ++ [ERead 2; ERecord 2; ERead 1; ESend 0 1 50; ESched 0 (T 2000); EComplete 0; ELtc 0; ERead 0; ERecord 0; ERecord 1; EReturn 2; EStart 2; EStart 1; ESend 1 2 NEVER].
Theorem C56_race_refuted : exists tp start stops ops y, topo_ok tp /\ no_zero_delay_cycle tp /\ 0 <= start < FOREVER /\ loc_run tp start (init_sys start stops) ops = Some y /\
  forallb tame ops = true /\ ~ grants_respected (r_sent (y_rti y 2%nat)) /\ late y 2.
Proof.
  assert (V : option_map (fun y => view (Some y) 2) (loc_run row 0 (init_sys 0 keepalive) race_run) = Some (Some ([MTag (T 0); MTag (T 900); MMsg (T 150)], T 900, [T 150]))) by now vm_compute.
  destruct (loc_run row 0 (init_sys 0 keepalive) race_run) as [y|] eqn:E; [|discriminate V]. injection V as V1 V2 V3.
  exists row, 0, keepalive, race_run, y. split; [apply row_ok|]. split; [apply row_ok|]. split; [exact (conj (Z.le_refl 0) eq_refl)|]. split; [exact E|]. split; [reflexivity|]. split.
  - rewrite V1. intros G. specialize (G [MTag (T 0)] (T 900) [MMsg (T 150)] (T 150) eq_refl (or_introl eq_refl)). unfold tag_lt, T in G. cbn in G. lia.
  - exists (T 150). rewrite V2, V3. split; [now left|]. left. cbn. lia.
Qed.
Print Assumptions C56_race_refuted.

(** An enclave that waits for its next event promises not to send before it, but a physical action can come earlier. *)
Definition physical_run : list lop :=
  [ERead 0; ERecord 0; EStart 0; EComplete 0; ELtc 0; ERead 0; ERecord 0;
   ERead 1; ERecord 1; EStart 1; ESched 1 (T 900); EComplete 1; ELtc 1; ERead 1; ERecord 1; EStart 1; EPhysical 0 (T 500); EStart 0; ESend 0 1 50].
Theorem C56_physical_refuted : exists tp start stops ops y, topo_ok tp /\ no_zero_delay_cycle tp /\ 0 <= start < FOREVER /\ loc_run tp start (init_sys start stops) ops = Some y /\
  ~ grants_respected (r_sent (y_rti y 1%nat)) /\ late y 1.
Proof.
  assert (V : option_map (fun y => view (Some y) 1) (loc_run row 0 (init_sys 0 keepalive) physical_run) = Some (Some ([MTag (mkTag 49 UINT_MAX); MTag (T 900); MMsg (T 550)], T 900, [T 550]))) by now vm_compute.
  destruct (loc_run row 0 (init_sys 0 keepalive) physical_run) as [y|] eqn:E; [|discriminate V]. injection V as V1 V2 V3.
  exists row, 0, keepalive, physical_run, y. split; [apply row_ok|]. split; [apply row_ok|]. split; [exact (conj (Z.le_refl 0) eq_refl)|]. split; [exact E|]. split.
  - rewrite V1. intros G. specialize (G [MTag (mkTag 49 UINT_MAX)] (T 900) [MMsg (T 550)] (T 550) eq_refl (or_introl eq_refl)). unfold tag_lt, T in G. cbn in G. lia.
  - exists (T 550). rewrite V2, V3. split; [now left|]. left. cbn. lia.
Qed.
Print Assumptions C56_physical_refuted.

(** An enclave without events asks for FOREVER, so that downstream enclaves may advance; without keepalive it then
    ends, and executes its shutdown reactions one microstep after its last tag. *)
Definition starve_run : list lop :=
  [ERead 0; ERecord 0; EStart 0; EComplete 0; ELtc 0; ERead 0; ERecord 0;
   ERead 1; ERecord 1; EStart 1; ESched 1 (T 900); EComplete 1; ELtc 1; ERead 1; ERecord 1; EStart 1; EStarve 0; EStart 0; ESend 0 1 50].
Theorem C56_starvation_refuted : exists tp start stops ops y, topo_ok tp /\ no_zero_delay_cycle tp /\ 0 <= start < FOREVER /\ loc_run tp start (init_sys start stops) ops = Some y /\
  ~ grants_respected (r_sent (y_rti y 1%nat)) /\ late y 1.
Proof.
  assert (V : option_map (fun y => view (Some y) 1) (loc_run row 0 (init_sys 0 keepalive) starve_run) = Some (Some ([MTag (mkTag 49 UINT_MAX); MTag (T 900); MMsg (T 50)], T 900, [T 50]))) by now vm_compute.
  destruct (loc_run row 0 (init_sys 0 keepalive) starve_run) as [y|] eqn:E; [|discriminate V]. injection V as V1 V2 V3.
  exists row, 0, keepalive, starve_run, y. split; [apply row_ok|]. split; [apply row_ok|]. split; [exact (conj (Z.le_refl 0) eq_refl)|]. split; [exact E|]. split.
  - rewrite V1. intros G. specialize (G [MTag (mkTag 49 UINT_MAX)] (T 900) [MMsg (T 50)] (T 50) eq_refl (or_introl eq_refl)). unfold tag_lt, T in G. cbn in G. lia.
  - exists (T 50). rewrite V2, V3. split; [now left|]. left. cbn. lia.
Qed.
Print Assumptions C56_starvation_refuted.
