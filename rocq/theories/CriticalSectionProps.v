(** C69: critical sections of the single-threaded runtime nest. *)
From Verif Require Import Base CriticalSection CriticalSectionSpec CriticalSectionProofs.

(** On Patmos, Zephyr, RP2040 and FlexPRET, for every sequence of calls in which no section
    is closed that is not open: every call succeeds, and interrupts are enabled exactly when
    all sections have been closed again.  (It holds for every prefix of a sequence, so it
    describes the interrupts at every moment.) *)
Theorem C69_nested : forall p l n,
  In p [Patmos; Zephyr; Rp2040; Flexpret] ->
  depth 0 l = Some n -> shallow l ->
  exists c rets,
    run p core0 l = Ok (c, rets) /\ length rets = length l /\ Forall (eq Zero) rets /\
    irq c = Nat.eqb n 0.
Proof.
  intros p l n P D L.
  assert (I : inside p true 0 core0).
  { split; [reflexivity|split; [reflexivity|split; [reflexivity|]]].
    destruct P as [<-|[<-|[<-|[<-|[]]]]]; cbn; try reflexivity; intros X; destruct X; reflexivity. }
  destruct (run_inside p true l 0 n core0 I D L) as [c [rets [R [F I']]]].
  exists c, rets. split; [exact R|]. split.
  { clear - R. revert R. generalize core0. revert rets. induction l as [|o l IH]; intros rets c0 R; cbn [run] in R.
    - injection R as _ R. subst. reflexivity.
    - destruct (call p o c0) as [x|]; [|discriminate]. cbn [bind] in R.
      destruct (run p (fst x) l) as [y|] eqn:Y; [|discriminate]. cbn [bind] in R.
      injection R as R1 R2. subst. cbn [length]. f_equal. apply (IH _ (fst x)). rewrite Y.
      destruct y; reflexivity. }
  split; [exact F|]. destruct I' as [_ [_ [I' _]]]. rewrite I'. destruct n; reflexivity.
Qed.

Example C69_nested_ex :
  depth 0 [Enter; Enter; Exit; Enter; Exit; Exit; Enter] = Some 1%nat /\
  shallow [Enter; Enter; Exit; Enter; Exit; Exit; Enter] /\
  exists c, run Zephyr core0 [Enter; Enter; Exit; Enter; Exit; Exit; Enter] =
            Ok (c, [Zero; Zero; Zero; Zero; Zero; Zero; Zero]) /\ irq c = false.
Proof.
  split; [reflexivity|]. split; [unfold shallow; vm_compute; discriminate|].
  eexists. split; [vm_compute; reflexivity|reflexivity].
Qed.

(** On Zephyr and RP2040 closing the outermost section restores what was there before it
    was opened: if interrupts were off they stay off. *)
Theorem C69_restores : forall p l n c,
  In p [Zephyr; Rp2040] ->
  nested c = 0 -> in_isr c = false -> depth 0 l = Some n -> shallow l ->
  exists c' rets,
    run p c l = Ok (c', rets) /\ Forall (eq Zero) rets /\
    irq c' = (if Nat.eqb n 0 then irq c else false).
Proof.
  intros p l n c P N B D L.
  assert (I : inside p (irq c) 0 c).
  { split; [exact N|split; [exact B|split; [reflexivity|]]].
    destruct P as [<-|[<-|[]]]; intros X; destruct X; reflexivity. }
  destruct (run_inside p (irq c) l 0 n c I D L) as [c' [rets [R [F I']]]].
  exists c', rets. split; [exact R|split; [exact F|]].
  destruct I' as [_ [_ [I' _]]]. rewrite I'. destruct n; reflexivity.
Qed.

Example C69_restores_ex :
  exists c', run Rp2040 (mkCore 0 false true false) [Enter; Enter; Exit; Exit] =
             Ok (c', [Zero; Zero; Zero; Zero]) /\ irq c' = false.
Proof. eexists. split; [vm_compute; reflexivity|reflexivity]. Qed.

(** Patmos always enables: a section in code that runs with interrupts off, such as an
    interrupt service routine that schedules an action, turns them on. *)
Theorem C69_patmos_off_refuted :
  exists c c' rets, nested c = 0 /\ irq c = false /\
    run Patmos c [Enter; Exit] = Ok (c', rets) /\ irq c' = true.
Proof.
  exists (mkCore 0 false false true). eexists; eexists.
  split; [reflexivity|split; [reflexivity|split; [vm_compute; reflexivity|reflexivity]]].
Qed.

(** FlexPRET: inside an interrupt service routine the calls have no effect. *)
Theorem C69_flexpret_isr : forall l c,
  in_isr c = true ->
  exists rets, run Flexpret c l = Ok (c, rets) /\ Forall (eq Zero) rets.
Proof.
  intros l c B. induction l as [|o l [rets [R F]]].
  - exists []. split; [reflexivity|constructor].
  - exists (Zero :: rets). split; [|constructor; [reflexivity|exact F]].
    destruct o; cbn [run call disable enable]; rewrite B; cbn [bind fst snd]; rewrite R; reflexivity.
Qed.

Example C69_flexpret_isr_ex :
  run Flexpret (mkCore 0 false false true) [Enter; Exit] = Ok (mkCore 0 false false true, [Zero; Zero]).
Proof. reflexivity. Qed.

(** Closing a section that is not open is reported and changes nothing. *)
Theorem C69_unmatched : forall p c,
  In p [Patmos; Zephyr; Rp2040; Nrf52] -> nested c = 0 -> enable p c = Ok (c, Err).
Proof.
  intros p c P N. destruct P as [<-|[<-|[<-|[<-|[]]]]]; cbn; rewrite N; reflexivity.
Qed.

(** nRF52: closing an inner section enables interrupts although the outer one is still
    open.  The runtime nests sections: reading the clock, scheduling and freeing a value
    use atomic operations or sections of their own inside the section of the caller. *)
Theorem C69_nrf52_refuted :
  exists l c rets, depth 0 l = Some 1%nat /\ shallow l /\
    run Nrf52 core0 l = Ok (c, rets) /\ Forall (eq Zero) rets /\ irq c = true.
Proof.
  exists [Enter; Enter; Exit]. eexists; eexists. split; [reflexivity|].
  split; [unfold shallow; vm_compute; discriminate|].
  split; [vm_compute; reflexivity|]. split; [repeat constructor|reflexivity].
Qed.

(** Arduino: the bodies of the two functions are exchanged.  Opening a section fails and
    leaves interrupts enabled; closing one disables them. *)
Theorem C69_arduino_refuted :
  disable Arduino core0 = Ok (core0, Err) /\ irq core0 = true /\
  exists c, enable Arduino core0 = Ok (c, Zero) /\ irq c = false.
Proof.
  split; [reflexivity|split; [reflexivity|]]. eexists. split; [vm_compute; reflexivity|reflexivity].
Qed.

(** * Atomic operations *)

(** On every platform but Arduino, for every operation written between disabling and
    enabling interrupts and for every interrupt that arrives before, during or after it:
    the outcome is as if the interrupts that came before were served, then the operation
    was executed in one step, then the others were served. *)
Theorem C69_atomic : forall p m before steps last after,
  p <> Arduino ->
  nested (cpu m) = 0 -> irq (cpu m) = true -> in_isr (cpu m) = false -> waiting m = [] ->
  loc (data m) = 0 -> tmp (data m) = 0 ->
  exists m',
    atomic p m before steps last after = Ok m' /\
    irq (cpu m') = true /\ waiting m' = [] /\
    let '(result, content) := exec (map snd steps) (serve before (mem (data m))) in
    loc (data m') = result /\
    mem (data m') = serve (concat (map fst steps) ++ last ++ after) content.
Proof.
  intros p [c d w] before steps last after PA N I B W L T. cbn in N, I, B, W, L, T. subst w.
  destruct (outermost p c PA N I B) as [c1 [c2 [D [I1 [E [N2 [I2 B2]]]]]]].
  unfold atomic. rewrite (raise_on _ before) by exact I. cbn [cpu data waiting app].
  rewrite D. cbn [bind fst snd].
  rewrite body_masked by exact I1. cbn [cpu data waiting app].
  rewrite raise_off by exact I1. cbn [cpu data waiting].
  rewrite E. cbn [bind fst snd].
  eexists. split; [reflexivity|]. rewrite raise_on by exact I2. cbn [cpu data waiting].
  split; [exact I2|split; [reflexivity|]].
  destruct d as [v lo te]. cbn in L, T. subst lo te. unfold exec. cbn [mem loc tmp].
  rewrite <- app_assoc. split; reflexivity.
Qed.

(** What the operations do, for numbers of [w] bits. *)
Theorem C69_operations : forall w m v old new,
  0 < w -> fits w m ->
  (fits w (m + v) -> exec (fetch_add w v) m = (m, m + v)) /\
  (fits w (m + v) -> exec (add_fetch w v) m = (m + v, m + v)) /\
  exec (bool_cas old new) m = (if m =? old then (1, new) else (0, m)) /\
  exec (val_cas old new) m = (m, if m =? old then new else m).
Proof.
  intros w m v old new W M.
  assert (R : forall z, fits w z -> wrap w z = z).
  { intros z [Z1 Z2]. unfold wrap. rewrite Z.mod_small; [lia|].
    replace (2 ^ w) with (2 * 2 ^ (w - 1)); [lia|].
    rewrite <- Z.pow_succ_r by lia. f_equal. lia. }
  split; [|split; [|split]].
  - intros F. unfold exec, fetch_add. cbn [fold_left mem loc tmp]. rewrite R by exact F. reflexivity.
  - intros F. unfold exec, add_fetch. cbn [fold_left mem loc tmp]. rewrite R by exact F. reflexivity.
  - unfold exec, bool_cas. cbn [fold_left mem loc tmp].
    destruct (m =? old) eqn:E; cbn [fold_left mem loc tmp Z.eqb Pos.eqb]; reflexivity.
  - unfold exec, val_cas. cbn [fold_left mem loc tmp].
    destruct (m =? old) eqn:E; cbn [fold_left mem loc tmp Z.eqb Pos.eqb]; reflexivity.
Qed.

(** A counter incremented by the program and doubled by interrupts before, in the middle of
    and after the operation. *)
Example C69_atomic_ex :
  exists m', atomic Zephyr (mkMachine core0 (mkCell 5 0 0) []) [Z.mul 2]
               (combine [[]; [Z.mul 3]; []] (fetch_add 32 1)) [] [Z.mul 7] = Ok m' /\
             loc (data m') = 10 /\ mem (data m') = 231.
Proof. eexists. split; [vm_compute; reflexivity|split; reflexivity]. Qed.

Example C69_operations_ex :
  fits 32 41 /\ exec (fetch_add 32 1) 41 = (41, 42) /\ exec (bool_cas 41 7) 41 = (1, 7) /\
  exec (bool_cas 40 7) 41 = (0, 41) /\ exec (val_cas 41 7) 41 = (41, 7).
Proof. unfold fits. vm_compute. repeat split; discriminate. Qed.

(** With two cores disabling interrupts is not enough.  RP2040: the nesting counter is
    shared and read without the lock, so the second core enters the section of the first;
    two increments give one. *)
Theorem C69_rp2040_cores_refuted :
  exists l, let s := run2 rp2040_step two0 l in
    at0 s = Done /\ at1 s = Done /\ value2 s = 1 /\ res0 s = res1 s.
Proof.
  exists [false; false; false; false; true; true; true; true; true; false; false].
  vm_compute. repeat split.
Qed.

(** FlexPRET: the other hardware threads go on. *)
Theorem C69_flexpret_harts_refuted :
  exists l, let s := run2 flexpret_step two0 l in
    at0 s = Done /\ at1 s = Done /\ value2 s = 1 /\ res0 s = res1 s.
Proof.
  exists [false; true; false; true; false; true]. vm_compute. repeat split.
Qed.

Print Assumptions C69_nested.
Print Assumptions C69_restores.
Print Assumptions C69_patmos_off_refuted.
Print Assumptions C69_flexpret_isr.
Print Assumptions C69_unmatched.
Print Assumptions C69_nrf52_refuted.
Print Assumptions C69_arduino_refuted.
Print Assumptions C69_atomic.
Print Assumptions C69_operations.
Print Assumptions C69_rp2040_cores_refuted.
Print Assumptions C69_flexpret_harts_refuted.
