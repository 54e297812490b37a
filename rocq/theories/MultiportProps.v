(** C29, C30: multiports. *)
From Coq Require Import Sorted Permutation.
From Verif Require Import Base Pqueue PqueueProofs Multiport MultiportSpec MultiportProofs.
From Coq Require Import Arith.
Open Scope Z_scope.

(** ** C29.  After any channels have been set (each at most once if the multiport has a sparse record),
    [k] calls give the present channels in ascending order and then -1 for ever; no call is undefined. *)
Theorem C29_iteration : forall m0 cs k, fresh m0 -> (mp_sparse m0 = None \/ NoDup cs) -> (forall c, In c cs -> Z.of_nat c < mp_width m0) ->
  let m := fold_left set_present cs m0 in
  iterate m k = Ok (then_minus_one (present_channels m) k) /\
  (forall c, In c (present_channels m) <-> In c cs) /\ StronglySorted lt (present_channels m).
Proof.
  intros m0 cs k F H Hr m. destruct (listed_after m0 F cs) as (L & W). fold (after_sets m0 cs) in m. subst m.
  assert (Hr2 : forall c, In c cs -> Z.of_nat c < mp_width (after_sets m0 cs)) by (rewrite W; exact Hr).
  split; [|split; [|apply seq_filter_sorted]].
  - destruct H as [H|H]; [|eapply sparse_all; eassumption]. apply linear_all. unfold linear_mode.
    assert (K : forall l m, mp_sparse m = None -> mp_sparse (fold_left set_present l m) = None) by (induction l as [|c l IH]; intros m Hm; [exact Hm|]; cbn [fold_left]; apply IH; cbn; rewrite Hm; reflexivity).
    unfold after_sets. rewrite K by exact H. exact I.
  - intros c. unfold present_channels. rewrite filter_In, in_seq. destruct L as (L & _). rewrite L. split; [tauto|]. intros K. split; [|exact K]. specialize (Hr2 c K). lia.
Qed.
Print Assumptions C29_iteration.
(** Also when the record has overflowed. *)
Theorem C29_overflow : forall m sp k, mp_sparse m = Some sp -> sp_size sp < 0 -> iterate m k = Ok (then_minus_one (present_channels m) k).
Proof. intros m sp k H Hs. apply linear_all. unfold linear_mode. rewrite H. exact Hs. Qed.
Print Assumptions C29_overflow.

Definition ex_m (w : Z) (cap : nat) : mport := mkMport w (fun _ => false) (Some (mkSparse cap 0 (repeat 7%nat cap))).
Example C29_ex : fresh (ex_m 12 3) /\ NoDup [11; 2; 5]%nat /\
  iterate (fold_left set_present [11; 2; 5]%nat (ex_m 12 3)) 5 = Ok [2; 5; 11; -1; -1] /\
  iterate (fold_left set_present [11; 2; 5; 4]%nat (ex_m 12 3)) 6 = Ok [2; 4; 5; 11; -1; -1] /\
  iterate (fold_left set_present [11; 2; 2]%nat (mkMport 12 (fun _ => false) None)) 3 = Ok [2; 11; -1].
Proof.
  split; [split; [reflexivity|cbn; repeat split; lia]|]. split; [|vm_compute; auto].
  repeat (constructor; [cbn; lia|]). constructor.
Qed.
(** With a sparse record a channel that is set twice in the same tag is reported twice. *)
Theorem C29_set_twice_refuted : exists m0 cs, fresh m0 /\ (forall c, In c cs -> Z.of_nat c < mp_width m0) /\
  present_channels (fold_left set_present cs m0) = [2%nat] /\ iterate (fold_left set_present cs m0) 3 = Ok [2; 2; -1].
Proof.
  exists (ex_m 12 3), [2; 2]%nat. split; [split; [reflexivity|cbn; repeat split; lia]|]. split; [intros c [<-|[<-|[]]]; cbn; lia|]. vm_compute. auto.
Qed.
Print Assumptions C29_set_twice_refuted.

(** Over any number of tags, with sets and iterations in any order: every iteration yields exactly the channels set at
    its tag so far; nothing of an earlier tag or of an earlier iteration is left over. *)
Theorem C29_history : forall m0 os, fresh m0 -> once (mp_width m0) [] os -> mrun m0 os = Ok (expected (mp_width m0) [] os).
Proof. intros m0 os F H. apply (history_ok os m0 [] (proj1 (listed_after m0 F [])) (NoDup_nil _)); [intros c []|tauto|exact H]. Qed.
Print Assumptions C29_history.
Definition ex_history : list mop := [MSet 11; MSet 2; MIter 3; MSet 5; MIter 4; MSet 4; MIter 5; MTag; MIter 1; MSet 7; MIter 2]%nat.
Example C29_history_ex : fresh (ex_m 12 3) /\ once 12 [] ex_history /\
  mrun (ex_m 12 3) ex_history = Ok [[2; 11; -1]; [2; 5; 11; -1]; [2; 4; 5; 11; -1]; [-1]; [7; -1]].
Proof.
  split; [split; [reflexivity|cbn; repeat split; lia]|]. split; [|vm_compute; reflexivity]. cbn. repeat match goal with |- _ /\ _ => split end; try lia; try exact I; intuition discriminate.
Qed.

(** ** C30.  However the steps of the writers interleave, when all have finished: if there is room for
    all of them, the record lists their channels, each once per writer; otherwise it is marked as overflowed.
    The array keeps its length, and the size never exceeds the number of writers. *)
Theorem C30_writers : forall cap chan ws sched, length chan = cap ->
  let s := sh_run (start_writes cap chan ws) sched in
  Forall is_done (sh_w s) ->
  ((length ws <= cap)%nat -> sh_size s = Z.of_nat (length ws) /\ Permutation (firstn (length ws) (sh_chan s)) ws) /\
  ((cap < length ws)%nat -> sh_size s = -1).
Proof.
  intros cap chan ws sched Hl s Hd. destruct (run_chans sched (start_writes cap chan ws)) as (Ec & Ecap). fold s in Ec, Ecap. rewrite start_chans in Ec. cbn in Ecap.
  assert (El : length (sh_w s) = length ws) by (rewrite <- Ec, map_length; reflexivity). split; intros Hn.
  - assert (S0 : safe (start_writes cap chan ws)) by (split; [apply calm_start, Hl|cbn; rewrite map_length; exact Hn]). apply (run_safe sched) in S0. fold s in S0. destruct S0 as (C & _).
    destruct (calm_done s C Hd) as (A & B & D). rewrite El, Ec in *. auto.
  - assert (K : calm s \/ doomed s) by (apply run_calm; left; apply calm_start, Hl). destruct K as [C|D]; [|apply doomed_done; assumption]. destruct (calm_done s C Hd) as (_ & B & _). lia.
Qed.
Print Assumptions C30_writers.
Theorem C30_size_bounded : forall cap chan ws sched, length chan = cap ->
  let s := sh_run (start_writes cap chan ws) sched in
  sh_size s <= Z.of_nat (length ws) /\ length (sh_chan s) = cap.
Proof.
  intros cap chan ws sched Hl s. destruct (run_chans sched (start_writes cap chan ws)) as (Ec & Ecap). fold s in Ec. rewrite start_chans in Ec.
  assert (El : length (sh_w s) = length ws) by (rewrite <- Ec, map_length; reflexivity). split.
  - rewrite <- El. apply run_bound. cbn. lia.
  - assert (K : forall l s0, length (sh_chan (sh_run s0 l)) = length (sh_chan s0)).
    { unfold sh_run. induction l as [|i l IH]; intros s0; [reflexivity|]. cbn [fold_left]. rewrite IH. unfold sh_step. destruct (nth_error (sh_w s0) i) as [w|]; [|reflexivity]. unfold write_step.
      destruct (w_phase w) as [| |k|o]; try reflexivity. destruct (_ || _); [reflexivity|]. cbn. apply set_nth_length. }
    subst s. rewrite K. exact Hl.
Qed.
Print Assumptions C30_size_bounded.
(** Three writers, room for two: one schedule in which the size passes through 0 again after the overflow. *)
Example C30_ex : let s := sh_run (start_writes 2 [0; 0]%nat [4; 5; 6]%nat) [0; 1; 2; 0; 1; 2; 1; 0; 2]%nat in
  Forall is_done (sh_w s) /\ sh_size s = -1 /\
  let t := sh_run (start_writes 3 [0; 0; 0]%nat [4; 5; 6]%nat) [2; 0; 1; 2; 0; 1; 1; 0; 2]%nat in
  Forall is_done (sh_w t) /\ sh_size t = 3 /\ sh_chan t = [6; 4; 5]%nat.
Proof.
  cbv zeta. split; [vm_compute; repeat constructor; eexists; reflexivity|]. split; [reflexivity|]. split; [vm_compute; repeat constructor; eexists; reflexivity|]. split; reflexivity.
Qed.
