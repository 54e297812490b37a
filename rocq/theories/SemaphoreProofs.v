From Verif Require Import Base Pqueue PqueueProofs Semaphore.
Open Scope Z_scope.

Definition blocked (s : sem) (t : nat) : Prop := exists w, sm_th s t = Blocked w.
Definition sinv (n : Z) (s : sem) : Prop :=
  sm_count s + sm_acquired s = n + sm_released s /\ 0 <= sm_count s /\ 0 <= sm_acquired s /\ 0 <= sm_released s /\
  ((exists t, blocked s t) -> sm_count s = 0).

Lemma sem_step_released s e s' : sem_step s e = Some s' -> sm_released s <= sm_released s'.
Proof.
  intros E. destruct e as [t w|t|i|t]; cbn [sem_step] in E;
    repeat match type of E with
           | context [match ?x with _ => _ end] => destruct x eqn:?; try discriminate
           end; injection E as <-; cbn [sm_released]; lia.
Qed.
Lemma sem_run_released : forall es s s', sem_run s es = Some s' -> sm_released s <= sm_released s'.
Proof.
  induction es as [|e r IH]; intros s s' E; cbn [sem_run] in E; [injection E as <-; lia|].
  destruct (sem_step s e) as [s1|] eqn:E1; [|discriminate].
  apply sem_step_released in E1. apply IH in E. lia.
Qed.

Lemma sem_step_inv n s e s' : n + sm_released s' < two64 -> sinv n s -> sem_step s e = Some s' -> sinv n s'.
Proof.
  intros Hb (H1 & H2 & H3 & H4 & H5) E.
  pose proof (sem_step_released _ _ _ E) as Hmono.
  destruct e as [t w|t|i|t]; cbn [sem_step] in E.
  - destruct (sm_th s t) eqn:Et; try discriminate. injection E as <-.
    unfold sinv; cbn [sm_count sm_acquired sm_released]. repeat split; try lia.
    intros (u & w' & Hu). cbn [sm_th] in Hu. apply H5. exists u, w'. revert Hu. unfold upd.
    destruct (Nat.eqb u t); [discriminate|trivial].
  - assert (K : forall w, (sm_th s t = Trying w \/ sm_th s t = Woken w) ->
       (if sm_count s =? 0 then Some (mkSem (sm_count s) (upd (sm_th s) t (Blocked w)) (sm_acquired s) (sm_released s))
        else match w with
             | ToAcquire => Some (mkSem (sm_count s - 1) (upd (sm_th s) t Idle) (sm_acquired s + 1) (sm_released s))
             | ToWait => Some (mkSem (sm_count s) (upd (sm_th s) t Idle) (sm_acquired s) (sm_released s))
             end) = Some s' -> sinv n s').
    { intros w _ E'. destruct (Z.eqb_spec (sm_count s) 0) as [E0|E0].
      - injection E' as <-. unfold sinv; cbn [sm_count sm_acquired sm_released]. repeat split; try lia.
      - assert (Hnb : ~ exists u, blocked s u) by (intros Hx; apply E0, H5, Hx).
        destruct w; injection E' as <-; unfold sinv; cbn [sm_count sm_acquired sm_released]; repeat split; try lia;
          intros (u & w' & Hu); exfalso; apply Hnb; exists u, w'; cbn [sm_th] in Hu; revert Hu; unfold upd;
          (destruct (Nat.eqb u t); [discriminate|trivial]). }
    destruct (sm_th s t) eqn:Et; try discriminate; eapply K; eauto.
  - destruct ((0 <=? i) && (i <? two64)) eqn:Ei; [|discriminate]. injection E as <-. cbn [sm_released] in *.
    unfold sinv; cbn [sm_count sm_acquired sm_released].
    rewrite Z.mod_small by lia. repeat split; try lia.
    intros (u & w & Hu). cbn [sm_th] in Hu. destruct (sm_th s u); discriminate.
  - destruct (sm_th s t) eqn:Et; try discriminate. injection E as <-.
    unfold sinv; cbn [sm_count sm_acquired sm_released]. repeat split; try lia.
    intros (u & w' & Hu). cbn [sm_th] in Hu. apply H5. exists u, w'. revert Hu. unfold upd.
    destruct (Nat.eqb u t); [discriminate|trivial].
Qed.

Lemma sem_run_inv n : forall es s s', n + sm_released s' < two64 -> sinv n s -> sem_run s es = Some s' -> sinv n s'.
Proof.
  induction es as [|e r IH]; intros s s' Hb Hs E; cbn [sem_run] in E; [injection E as <-; exact Hs|].
  destruct (sem_step s e) as [s1|] eqn:E1; [|discriminate].
  pose proof (sem_run_released _ _ _ E).
  eapply IH; [exact Hb| |exact E]. eapply sem_step_inv; [|exact Hs|exact E1]. lia.
Qed.
Lemma sem_new_inv n : 0 <= n -> sinv n (sem_new n).
Proof. intros H. unfold sinv, sem_new; cbn. repeat split; try lia. intros (t & w & Ht). discriminate. Qed.
